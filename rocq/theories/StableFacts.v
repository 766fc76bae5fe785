(** What is parsed can be written, but for a few conditions. *)
From Coq Require Import String List NArith ZArith Bool Lia PeanoNat.
From Verif Require Import Base BaseFacts Peg PegFacts PegYields Names SpecNames SimpleExt SimpleExtFacts SpecExt ExtLinesFacts SpecExtLines Out Anchors
  Types SpecTypes TypesFacts Calendar CalendarFacts Literals SpecLiterals LiteralsFacts Exprs SpecExprs ExprsFacts ExprEq
  ExtArgs Registry Rels SpecRels RelGrammar RelRead Tree Structural Version Plan SpecPlan SpecLits ExtReadFacts RelReadFacts RelTreeFacts RelGrammarFacts
  CrashFacts SpecVisible Props_Visible SpecStable.
Import ListNotations.
Local Open Scope string_scope.
Local Open Scope list_scope.
Local Open Scope Z_scope.

(** ** Dates and times as scanned *)

Lemma first_match_some {A} (ps : list (peg A)) s a : first_match ps s = Some a ->
  exists p r, In p ps /\ p s = Some (a, r).
Proof.
  induction ps as [|p ps IH]; cbn [first_match]; [discriminate|]. unfold scan_all. destruct (p s) as [[x [|c r]]|] eqn:E.
  - intros [= <-]. exists p, []. split; [now left|exact E].
  - intros H. destruct (IH H) as (q & r' & Hq & Hr). exists q, r'. split; [now right|exact Hr].
  - intros H. destruct (IH H) as (q & r' & Hq & Hr). exists q, r'. split; [now right|exact Hr].
Qed.

Lemma yields_scan_date sep : yields (fun d => date_valid d = true) (scan_date sep).
Proof.
  unfold scan_date. skip1. skips. skip1. skips. skip1. destruct (date_valid _) eqn:E; [apply yields_ret, E|apply yields_fail].
Qed.
Lemma yields_scan_2 lo hi : yields (fun z => in_range lo hi z = true) (scan_2 lo hi).
Proof. unfold scan_2. skips. skip1. destruct (in_range lo hi _) eqn:E; [apply yields_ret, E|apply yields_fail]. Qed.
Lemma yields_scan_frac : yields (fun z => 0 <= z) scan_frac.
Proof.
  intros [|c s] z r H; cbn [scan_frac] in H; [injection H as <- _; lia|].
  destruct (c =? 46)%N; [|injection H as <- _; lia]. destruct (span_upto 9 is_digit s) as [[|d ds] r']; [discriminate|].
  injection H as <- _. apply Z.mul_nonneg_nonneg; [lia|]. apply Z.pow_nonneg. lia.
Qed.
Lemma yields_scan_time frac : yields (fun t => 0 <= time_nanos t) (scan_time frac).
Proof.
  unfold scan_time. eapply yields_bind; [apply yields_scan_2|]. intros h Hh. skips.
  eapply yields_bind; [apply yields_scan_2|]. intros m Hm. skips. eapply yields_bind; [apply yields_scan_2|]. intros s Hs.
  eapply yields_bind with (P := fun z => 0 <= z); [destruct frac; [apply yields_scan_frac|apply yields_ret; lia]|]. intros n Hn.
  apply yields_ret. unfold in_range in *. bool_hyps. unfold time_nanos, nano_per_sec.
  destruct (s =? 60); cbn [t_secs t_nano]; lia.
Qed.
Lemma yields_scan_datetime sep t frac :
  yields (fun x => date_valid (fst x) = true /\ 0 <= time_nanos (snd x)) (scan_datetime sep t frac).
Proof.
  unfold scan_datetime. eapply yields_bind; [apply yields_scan_date|]. intros d Hd. skips.
  eapply yields_bind; [apply yields_scan_time|]. intros x Hx. apply yields_ret. now split.
Qed.

Lemma parse_date_range s z : parse_date_to_days s = Ok z -> in_range first_day last_day z = true.
Proof.
  unfold parse_date_to_days. destruct (first_match _ s) as [d|] eqn:E; [|discriminate]. intros [= <-].
  apply first_match_some in E as (p & r & Hp & E). assert (Hd : date_valid d = true).
  { destruct Hp as [<-|[<-|[]]]; apply yields_scan_date in E; exact E. }
  apply date_valid_iff in Hd as [_ Hd]. rewrite min_days_first, max_days_last in Hd. rewrite wrap_i32_id; [exact Hd|].
  unfold in_range, first_day, last_day, i32_min, i32_max in *. bool_hyps. lia.
Qed.

Lemma check_supported p q : check_supported_precision p = Ok q -> supported p = true /\ p <> 12 /\ q <> PPico /\ prec_units q = p.
Proof.
  unfold check_supported_precision, prec_of_units, supported.
  destruct (Z.eqb_spec p 0) as [->|]; [intros [= <-]; repeat split; discriminate|].
  destruct (Z.eqb_spec p 3) as [->|]; [intros [= <-]; repeat split; discriminate|].
  destruct (Z.eqb_spec p 6) as [->|]; [intros [= <-]; repeat split; discriminate|].
  destruct (Z.eqb_spec p 9) as [->|]; [intros [= <-]; repeat split; discriminate|].
  destruct (p =? 12); discriminate.
Qed.
Lemma duration_units d q v : duration_to_units d q = Ok v -> v * prec_nanos q = d.
Proof.
  unfold duration_to_units, prec_nanos. destruct q.
  - destruct (_ =? d) eqn:E; [|discriminate]. intros [= <-]. now apply Z.eqb_eq in E.
  - destruct (_ =? d) eqn:E; [|discriminate]. intros [= <-]. now apply Z.eqb_eq in E.
  - destruct (in_range _ _ _); [|discriminate]. destruct (_ =? d) eqn:E; [|discriminate]. intros [= <-]. now apply Z.eqb_eq in E.
  - destruct (in_range _ _ _); [|discriminate]. intros [= <-]. lia.
  - discriminate.
Qed.
Lemma duration_range d q v : duration_to_units d q = Ok v -> q = PMicro \/ q = PNano -> in_range i64_min i64_max v = true.
Proof.
  unfold duration_to_units. intros H [-> | ->].
  - destruct (in_range _ _ _) eqn:E; [|discriminate]. destruct (_ =? d); [|discriminate]. injection H as <-. exact E.
  - destruct (in_range _ _ _) eqn:E; [|discriminate]. injection H as <-. exact E.
Qed.

Lemma parse_time_ok s p v : parse_time s p = Ok v -> v < 86400 * 10 ^ p ->
  supported p && negb (p =? 12) && within_day p v = true.
Proof.
  unfold parse_time. intros H Hv. apply rbind_ok in H as (q & Hq & H). apply check_supported in Hq as (Hs & H12 & Hp & Hu).
  destruct (first_match _ s) as [t|] eqn:E; [|discriminate]. apply first_match_some in E as (g & r & Hg & E).
  assert (Ht : 0 <= time_nanos t). { destruct Hg as [<-|[<-|[]]]; apply yields_scan_time in E; exact E. }
  apply duration_units in H. rewrite Hs. apply Z.eqb_neq in H12. rewrite H12. cbn [negb andb]. unfold within_day.
  apply andb_true_iff. split; [|now apply Z.ltb_lt]. apply Z.leb_le. pose proof (prec_nanos_pos q). nia.
Qed.

Lemma parse_timestamp_ok s p v : parse_timestamp s p = Ok v -> v < (last_day + 1) * 86400 * 10 ^ p ->
  supported p && negb (p =? 12) && in_range i64_min i64_max v && within_calendar p v = true.
Proof.
  unfold parse_timestamp. intros H Hv. apply rbind_ok in H as (q & Hq & H). apply check_supported in Hq as (Hs & H12 & Hp & Hu).
  destruct (first_match _ s) as [x|] eqn:E; [|discriminate]. apply first_match_some in E as (g & r & Hg & E).
  assert (Hx : date_valid (fst x) = true /\ 0 <= time_nanos (snd x)).
  { unfold timestamp_formats in Hg. repeat (destruct Hg as [<-|Hg]; [apply yields_scan_datetime in E; exact E|]). destruct Hg. }
  destruct Hx as [Hd Ht]. apply date_valid_iff in Hd as [_ Hd]. rewrite min_days_first, max_days_last in Hd.
  assert (Hr : q = PMicro \/ q = PNano -> in_range i64_min i64_max v = true) by (apply (duration_range _ _ _ H)).
  apply duration_units in H. destruct (LiteralsFacts.readable p Hs H12) as (q' & Hc & _ & Hu' & Eq & _).
  assert (q' = q) as -> by (destruct q, q'; cbn in *; congruence). apply Z.eqb_neq in H12.
  assert (B : first_day * 86400 * 10 ^ p <= v).
  { unfold datetime_nanos, nanos_per_day, nano_per_sec in H. unfold in_range in Hd. bool_hyps.
    pose proof (prec_nanos_pos q) as Hpos. apply (Zmult_le_reg_r _ _ (prec_nanos q)); [lia|].
    replace (first_day * 86400 * 10 ^ p * prec_nanos q) with (first_day * 86400 * (10 ^ p * prec_nanos q)) by ring.
    rewrite Eq, H. nia. }
  assert (R : in_range i64_min i64_max v = true).
  { destruct q; auto; cbn in Hu; subst p; unfold in_range, i64_min, i64_max, first_day, last_day in *.
    - change (10 ^ 0) with 1 in *. lia.
    - change (10 ^ 3) with 1000 in *. lia. }
  rewrite Hs, H12, R. cbn [negb andb]. unfold within_calendar. apply andb_true_iff. split; [now apply Z.leb_le|now apply Z.ltb_lt].
Qed.

Lemma parse_int_range lo hi s z : parse_int lo hi s = Some z -> in_range lo hi z = true.
Proof. unfold parse_int. destruct (read_Z s); [|discriminate]. destruct (in_range lo hi z0) eqn:E; [|discriminate]. now intros [= <-]. Qed.
Lemma parse_i32_range s z : parse_i32 s = Some z -> in_range i32_min i32_max z = true.
Proof. apply parse_int_range. Qed.
Lemma parse_i64_range s z : parse_i64 s = Some z -> in_range i64_min i64_max z = true.
Proof. apply parse_int_range. Qed.
Lemma duration_number_ok o z : duration_number o = Ok z -> o = Some z.
Proof. destruct o; cbn; congruence. Qed.

Lemma parse_interval_ok s q i : parse_interval s q = Ok i ->
  iv_mode i = Some (IvPrecision (prec_units q)) /\ in_range i32_min i32_max (iv_days i) = true /\
  in_range i32_min i32_max (iv_secs i) = true /\ in_range i64_min i64_max (iv_sub i) = true /\ (q = PSec -> iv_sub i = 0).
Proof.
  unfold parse_interval. destruct (g_interval_duration s) as [[[[d c] u] r]|]; [|discriminate]. intros H.
  apply rbind_ok in H as (days & Hd & H). apply rbind_ok in H as (secs & Hs & H). apply rbind_ok in H as (sub & Hu & H).
  injection H as <-. cbn [iv_mode iv_days iv_secs iv_sub]. split; [reflexivity|].
  split. { destruct d; [apply duration_number_ok, parse_i32_range in Hd; exact Hd|injection Hd as <-; reflexivity]. }
  split. { destruct c; [apply duration_number_ok, parse_i32_range in Hs; exact Hs|injection Hs as <-; reflexivity]. }
  destruct u as [[t unit]|]; [|injection Hu as <-; split; [reflexivity|auto]].
  apply rbind_ok in Hu as (q' & Hq & Hu). apply unwrap_ok in Hq. destruct (Z.eqb_spec (prec_units q') (prec_units q)) as [E|]; [|discriminate].
  apply duration_number_ok, parse_i64_range in Hu. split; [exact Hu|]. intros ->. exfalso.
  unfold prec_of_unit in Hq. repeat (destruct (streqb unit _); [injection Hq as <-; discriminate|]). discriminate.
Qed.

(** ** Literals *)

Section Read.
  Context (U : Unicode) (F : Floats).
  Variable e : exts.
  Hypotheses (W : wf_exts e) (T : types_usable e) (Hw : exts_writable e = true).

  Lemma type_var t : type_ok e t = true ->
    match t with TSimple _ _ v | TPrec _ _ _ v | TIntervalDay _ _ v => v = 0%N | _ => True end.
  Proof.
    destruct t as [k n v|k p n v|p n v|p n v|k p n v|p q n v|ts n v|t n v|a b n v|r ps n v|r| | |]; cbn [type_ok]; auto; intros H; bool_hyps.
    - now apply N.eqb_eq.
    - match goal with H : (v =? 0)%N = true |- _ => now apply N.eqb_eq in H end.
    - destruct p; [|discriminate]. bool_hyps. match goal with H : (v =? 0)%N = true |- _ => now apply N.eqb_eq in H end.
  Qed.

  Lemma lower_literal_ok c l : lower_literal e c = Ok l -> literal_kept l -> literal_ok e l = true.
  Proof.
    unfold lower_literal. intros H. apply rbind_ok in H as (t & Ht & H).
    assert (Hp : match t with Some t => type_ok e t = true | None => True end).
    { destruct (snd c) as [tc|]; [|injection Ht as <-; exact I]. apply rmap_ok in Ht as (t' & Ht & ->). now apply (lower_type_writable _ _ _ W T) in Ht. }
    assert (Hv : match t with Some (TSimple _ _ v) | Some (TPrec _ _ _ v) | Some (TIntervalDay _ _ v) => v = 0%N | _ => True end).
    { destruct t as [t|]; [|exact I]. apply type_var in Hp. destruct t; exact Hp || exact I. }
    unfold literal_ok, literal_kept. destruct (fst c) as [s|s|s|s|].
    - unfold to_float_literal in H. destruct t as [[k n v|k p n v|p n v|p n v|k p n v|p q n v|ts n v|t n v|a b n v|r ps n v|r| | |]|]; try discriminate;
        try destruct k; try discriminate; injection H as <-; cbn [l_type l_nullable l_var value_ok]; try subst v; intros [A B];
        rewrite A; cbn [andb]; rewrite ?andb_true_r; try (apply N.eqb_eq; exact B); reflexivity.
    - unfold to_int_literal in H. apply rbind_ok in H as (z & Hz & H). apply unwrap_ok, parse_i64_range in Hz. intros _.
      destruct t as [[k n v|k p n v|p n v|p n v|k p n v|p q n v|ts n v|t n v|a b n v|r ps n v|r| | |]|]; try discriminate;
        try destruct k; try discriminate; injection H as <-; cbn [l_type l_nullable l_var value_ok]; try subst v; rewrite ?wrap_i32_range, ?Hz; reflexivity.
    - unfold to_boolean_literal in H. intros _. destruct t as [[k n v|k p n v|p n v|p n v|k p n v|p q n v|ts n v|t n v|a b n v|r ps n v|r| | |]|]; try discriminate;
        try destruct k; try discriminate; injection H as <-; cbn [l_type l_nullable l_var value_ok]; try subst v; reflexivity.
    - unfold to_string_literal in H. apply rbind_ok in H as (x & _ & H).
      destruct t as [[k n v|k p n v|p n v|p n v|k p n v|p q n v|ts n v|t n v|a b n v|r ps n v|r| | |]|];
        try destruct k; try (injection H as H; subst l; cbn; intros ->; reflexivity).
      all: try (apply rbind_ok in H as (z & Hz & H); injection H as <-; intros K; subst v; cbn [l_type l_nullable l_var value_ok] in *;
        first [ now rewrite (parse_date_range _ _ Hz)
              | now rewrite (parse_time_ok _ _ _ Hz K) | now rewrite (parse_timestamp_ok _ _ _ Hz K)
              | pose proof (parse_time_ok _ _ _ Hz K) as R; change (supported 6 && negb (6 =? 12)) with true in R; cbn [andb] in R; now rewrite R
              | pose proof (parse_timestamp_ok _ _ _ Hz K) as R; change (supported 6 && negb (6 =? 12)) with true in R; cbn [andb] in R; now rewrite R ]).
      destruct p as [p|]; [|discriminate]. destruct (prec_of_units p) as [q|] eqn:Eq; [|discriminate]. apply rbind_ok in H as (i & Hi & H).
      injection H as <-. intros _. subst v. cbn [l_type l_nullable l_var value_ok].
      apply parse_interval_ok in Hi as (I1 & I2 & I3 & I4 & I5). rewrite I1, I2, I3, I4. cbn [andb].
      destruct q; cbn [prec_units]; try reflexivity. now rewrite (I5 eq_refl).
    - unfold to_null_literal in H. destruct t as [t|]; [|discriminate]. injection H as <-. intros _. cbn. now rewrite Hp.
  Qed.

  (** ** Expressions *)

  Lemma gva_function a name r : get_and_validate_anchor e KFunction a name = Ok r -> function_ok e r = true.
  Proof.
    unfold get_and_validate_anchor. intros H. apply rmap_ok in H as (x & H & ->). unfold lift_missing in H.
    destruct (resolve_function e name a) as [y| |] eqn:E; try discriminate. injection H as <-.
    unfold resolve_function in E. apply rbind_ok in E as (b & _ & E).
    destruct (decl_get e KFunction b) as [[u n]|] eqn:D; [|rewrite (lookup_function_none _ _ D) in E; discriminate].
    rewrite (lookup_function_spec _ _ _ _ W D) in E. injection E as <-. cbn [rf_anchor]. unfold function_ok. rewrite D.
    apply (proj1 (decl_get_in _ _ _ _ _ W)) in D. unfold exts_writable in Hw. apply andb_true_iff in Hw as [_ H].
    rewrite forallb_forall in H. specialize (H _ D). cbn [decl_entry_ok decl_name_ok] in H. bool_hyps.
    apply andb_true_iff. split; [assumption|]. unfold is_u32 in *. apply Z.leb_le. unfold u32_max. lia.
  Qed.

  Definition lits_kept (x : pexpr) : Prop := forall l, in_expr l x -> literal_kept l.

  Lemma lower_args_ok args l : Forall (fun c => forall x, ewhole c -> lower_expr e c = Ok x -> lits_kept x -> expr_ok e x = true) args ->
    Forall ewhole args -> rlist (fun x => rmap AValue (lower_expr e x)) args = Ok l ->
    (forall y, In (AValue y) l -> lits_kept y) ->
    forallb (fun a => match a with AValue y => expr_ok e y | _ => false end) l = true.
  Proof.
    intros IH Hc H K. apply rlist_ok_inv in H. induction H as [|c y args l Hy _ IHl]; [reflexivity|].
    inversion IH; inversion Hc; subst. apply rmap_ok in Hy as (x & Hx & ->). cbn [forallb]. apply andb_true_iff. split.
    - match goal with H : forall x, ewhole c -> _ |- _ => apply H; auto end. apply K. now left.
    - apply IHl; auto. intros y Hy. apply K. now right.
  Qed.

  Lemma lower_expr_ok : forall c x, ewhole c -> lower_expr e c = Ok x -> lits_kept x -> expr_ok e x = true.
  Proof.
    induction c as [ifs els IH1 IH2|x b t IH|f args t IH|s|c] using ecst_ind2; cbn [lower_expr ewhole]; intros y Hc H K.
    - destruct Hc as (Hn & Hc1 & Hc2). apply fold_all2 in Hc1. apply rbind_ok in H as (l & Hl & H). apply rbind_ok in H as (z & Hz & H). injection H as <-.
      assert (G : l <> [] /\ forallb (fun c => match fst c, snd c with Some a, Some b => expr_ok e a && expr_ok e b | _, _ => false end) l = true).
      { assert (K' : forall c x, In c l -> fst c = Some x \/ snd c = Some x -> lits_kept x).
        { intros c x Hc Hx m Hm. apply K. eapply ie_if; eauto. }
        clear - Hn IH1 Hc1 Hl K'. split.
        - intros ->. destruct ifs as [|p ifs]; [congruence|]. cbn [clauses_loop] in Hl. apply rbind_ok in Hl as (? & _ & Hl). apply rbind_ok in Hl as (? & _ & Hl). discriminate.
        - clear Hn. revert l Hl K'. induction ifs as [|p ifs IH]; intros l H K'; cbn [clauses_loop] in H; [injection H as <-; reflexivity|].
          apply rbind_ok in H as (q & Hq & H). apply guard_drop_ok in Hq. apply rbind_ok in H as (qs & Hqs & H). injection H as <-.
          inversion IH1 as [|? ? [A B] A']; inversion Hc1 as [|? ? [C D] C']; subst. cbn [forallb].
          apply rbind_ok in Hq as (a & Ha & Hq). apply rbind_ok in Hq as (b & Hb & Hq). injection Hq as <-. cbn [fst snd].
          rewrite (A _ C Ha), (B _ D Hb), (IH A' C' _ Hqs); [reflexivity| | |].
          + intros c x Hc Hx. apply (K' c x); [now right|exact Hx].
          + apply (K' (Some a, Some b) b); [now left|now right].
          + apply (K' (Some a, Some b) a); [now left|now left]. }
      destruct G as [G1 G2]. destruct l as [|c0 l]; [congruence|]. cbn [expr_ok]. rewrite G2. cbn [andb]. apply IH2; auto.
      intros m Hm. apply K. now apply ie_else.
    - apply rbind_ok in H as (z & Hz & H). apply rbind_ok in H as (u & Hu & H). injection H as <-. cbn [expr_ok].
      rewrite (IH _ Hc Hz), (lower_type_writable _ _ _ W T Hu); [|intros m Hm; apply K; now apply ie_cast].
      destruct b as [b|]; cbn [behavior_value]; [destruct (b =? 63)%N; reflexivity|reflexivity].
    - apply fold_all in Hc. apply rbind_ok in H as (a & _ & H). apply rbind_ok in H as (l & Hl & H). apply rbind_ok in H as (u & Hu & H). apply rbind_ok in H as (r & Hr & H).
      injection H as <-. cbn [expr_ok]. rewrite (gva_function _ _ _ Hr), (lower_type_writable _ _ _ W T Hu). cbn [andb].
      eapply lower_args_ok; eauto. intros y Hy m Hm. apply K. eapply ie_arg; eauto.
    - apply rmap_ok in H as (i & Hi & ->). cbn. unfold field_index in Hi. now apply unwrap_ok, parse_i32_range in Hi.
    - apply rmap_ok in H as (l & Hl & ->). cbn [expr_ok]. apply (lower_literal_ok _ _ Hl). apply K. constructor.
  Qed.

  Lemma lower_measure_ok f args t a : Forall ewhole args -> lower_measure e (f, args, t) = Ok a ->
    (forall y, In (AValue y) (af_args a) -> lits_kept y) -> aggfn_ok e a = true.
  Proof.
    cbn [lower_measure]. intros Hc H K. apply rbind_ok in H as (x & _ & H). apply rbind_ok in H as (l & Hl & H).
    apply rbind_ok in H as (u & Hu & H). apply rbind_ok in H as (r & Hr & H). injection H as <-. unfold aggfn_ok. cbn [af_opts af_out af_ref af_args af_invocation af_phase] in *.
    rewrite (gva_function _ _ _ Hr), (lower_type_writable _ _ _ W T Hu). cbn [andb]. rewrite andb_true_r, andb_true_r.
    apply (lower_args_ok args); auto. apply Forall_all. exact lower_expr_ok.
  Qed.

  Lemma lower_list_ok l xs : Forall ewhole l -> lower_exprs e l = Ok xs -> (forall x, In x xs -> lits_kept x) -> Forall (fun x => expr_ok e x = true) xs.
  Proof.
    intros Hc H K. apply rlist_ok_inv in H. induction H as [|c x l xs Hx _ IH]; constructor.
    - inversion Hc; subst. apply (lower_expr_ok c); auto. apply K. now left.
    - inversion Hc; subst. apply IH; auto. intros y Hy. apply K. now right.
  Qed.
End Read.

(** ** Lines as read *)

Definition line_shape (y : rline) : Prop :=
  match y with
  | YRead t _ => t <> []
  | YProject l => Forall (fun a => match a with PaExpr (XRef _) => False | _ => True end) l
  | YSort l _ => Forall (fun p => In (snd p) sort_toks) l
  | _ => True
  end.

Lemma expr_F_reference ex s i r : expr_F ex s = Some (XRef i, r) -> g_reference s <> None.
Proof.
  intros H. unfold expr_F in H.
  apply palt_inv in H as [E1|[_ H]].
  { unfold g_if_then in E1. repeat (apply pthen_inv in E1 as (? & ? & _ & E1)).
    apply pbind_inv in E1 as (? & ? & _ & E1). repeat (apply pthen_inv in E1 as (? & ? & _ & E1)).
    apply pbind_inv in E1 as (? & ? & _ & E1). repeat (apply pthen_inv in E1 as (? & ? & _ & E1)). discriminate. }
  apply palt_inv in H as [E2|[_ H]].
  { unfold g_cast in E2. repeat (apply pthen_inv in E2 as (? & ? & _ & E2)).
    apply pbind_inv in E2 as (? & ? & _ & E2). repeat (apply pthen_inv in E2 as (? & ? & _ & E2)).
    apply pbind_inv in E2 as (? & ? & _ & E2). repeat (apply pthen_inv in E2 as (? & ? & _ & E2)).
    apply pbind_inv in E2 as (? & ? & _ & E2). discriminate. }
  apply palt_inv in H as [E|[_ H]]. { apply pmap_inv in E as ([[f a] t] & _ & E). discriminate. }
  apply palt_inv in H as [E|[_ H]]. { apply pmap_inv in E as (x & E & _). congruence. }
  apply pmap_inv in H as (x & _ & E). discriminate.
Qed.
Lemma yields_some_sep {A} sep (p : peg A) : yields (fun l => l <> []) (psep1 sep p).
Proof.
  intros s l r E ->. unfold psep1 in E. apply pbind_inv in E as (x & r' & _ & E). apply pbind_inv in E as (xs & r'' & _ & E). discriminate.
Qed.
Lemma line_shape_yields : yields line_shape g_relation.
Proof.
  unfold g_relation. repeat apply yields_alt.
  all: unfold g_ext_read, g_virtual, g_read, g_filter, g_project, g_aggregate, g_fetch, g_sort, g_join, g_set, g_cross, g_ext;
    try solve [other_line].
  - skips. eapply yields_bind with (P := fun l => l <> []); [apply yields_some_sep|]. intros t Ht. skips. skip1. skips. exact Ht.
  - skips. eapply yields_bind with (P := Forall (fun a => match a with PaExpr (XRef _) => False | _ => True end)).
    + apply yields_sep0. intros s a r H. unfold g_project_arg in H. apply palt_inv in H as [H|[Hn H]].
      * apply pmap_inv in H as (i & _ & ->). exact I.
      * apply pmap_none_inv in Hn. apply pmap_inv in H as (c & Hc & ->). destruct c; auto.
        rewrite g_expr_eq in Hc. apply expr_F_reference in Hc. congruence.
    + intros l Hl. skips. exact Hl.
  - skips. eapply yields_bind with (P := Forall (fun p => In (snd p) sort_toks)).
    + apply yields_sep0. unfold g_sort_field. skips. skip1. skips. eapply yields_bind; [apply yields_toks|]. intros d Hd. skips. exact Hd.
    + intros l Hl. skips. skip1. skips. exact Hl.
Qed.

(** What is known of a line that was read. *)
Definition line_known (y : rline) : Prop :=
  (match y with YRoot _ => True | _ => line_whole y end) /\ line_shape y /\ sets_given y /\ fetch_line_ok y.
Lemma readable_known y : readable y -> line_known y.
Proof.
  intros H. split; [|split; [|split]].
  - refine (readable_yields (fun y => match y with YRoot _ => True | _ => line_whole y end) _ (fun _ => I) y H).
    eapply yields_imp; [|apply yields_relation]. intros []; auto.
  - apply (readable_yields line_shape line_shape_yields (fun _ => I) y H).
  - apply (readable_yields sets_given sets_given_yields (fun _ => I) y H).
  - apply (readable_yields fetch_line_ok fetch_line_yields (fun _ => I) y H).
Qed.

(** ** Columns put out *)

Local Open Scope nat_scope.

Lemma emits_made m n shown : (Z.of_nat n <= column_limit)%Z -> (Z.of_nat shown <= column_limit)%Z ->
  (make_emit m n = EmDirect -> shown = n) ->
  (make_emit m n = EmEmit m -> Forall (fun i => 0 <= i < Z.of_nat shown)%Z m) ->
  emits (emit_common (make_emit m n)) shown n m (length m).
Proof.
  intros Hn Hs Hd He. destruct (make_emit_spec m n Hn) as [E1 E2]. destruct (make_emit m n) as [|m'].
  - rewrite (Hd eq_refl). destruct E2 as [E2 _]. rewrite (E2 eq_refl). unfold emit_common.
    replace (length (map Z.of_nat (seq 0 n))) with n by (now rewrite map_length, seq_length). now apply emits_direct.
  - cbn [emit_columns] in E1. subst m'. apply emits_emit; auto. intros E. apply E2 in E. discriminate.
Qed.
Lemma made_width m n : length m = match make_emit m n with EmEmit m' => length m' | EmDirect => n end.
Proof. destruct (make_emit_cases m n) as [[-> E]| ->]; auto. Qed.

Lemma filter_all {A} (f : A -> bool) l : Forall (fun x => f x = true) l -> filter f l = l.
Proof. induction 1 as [|x l H _ IH]; cbn; [reflexivity|]. now rewrite H, IH. Qed.
Lemma filter_none {A} (f : A -> bool) l : Forall (fun x => f x = false) l -> filter f l = [].
Proof. induction 1 as [|x l H _ IH]; cbn; [reflexivity|]. now rewrite H. Qed.
Lemma in_order_all n k : in_order n k (map Z.of_nat (seq 0 (n + k))).
Proof.
  unfold in_order. rewrite seq_app, map_app, filter_app, filter_none, filter_all; [reflexivity| |].
  - apply Forall_map, Forall_forall. intros i Hi. apply in_seq in Hi. apply Z.leb_le. lia.
  - apply Forall_map, Forall_forall. intros i Hi. apply in_seq in Hi. apply Z.leb_gt. lia.
Qed.

Lemma join_known t z : In t join_toks -> enum_number join_types (tl t) = Some z ->
  exists name, enum_name join_types z = Some name /\ (1 <= z <= 12)%Z /\
    forall l r, exists n, join_output name l r n /\ ((z <= 4)%Z -> n = l + r).
Proof.
  intros H. vm_compute in H. repeat (destruct H as [<-|H]; [intros E; vm_compute in E; injection E as <-; eexists; split; [reflexivity|split; [lia|]];
    intros l r; eexists; split; [constructor|intros; first [reflexivity|exfalso; lia]]|]). destruct H.
Qed.
Lemma set_known t z : In t set_toks -> enum_number set_ops (tl t) = Some z -> exists name, enum_name set_ops z = Some name.
Proof.
  intros H. vm_compute in H. repeat (destruct H as [<-|H]; [vm_compute; intros [= <-]; eexists; reflexivity|]). destruct H.
Qed.
Lemma sort_known t z : In t sort_toks -> enum_number sort_directions (tl t) = Some z -> (1 <= z <= 4)%Z.
Proof.
  intros H. vm_compute in H. repeat (destruct H as [<-|H]; [intros E; vm_compute in E; injection E as <-; lia|]). destruct H.
Qed.

Section Rels.
  Context (U : Unicode) (F : Floats).
  Variables (reg : registry) (op : options) (e : exts).
  Hypotheses (W : wf_exts e) (T : types_usable e) (Hw : exts_writable e = true) (Hk : keeps_columns reg).
  Notation X := (fun x => expr_ok e x = true).
  Notation Ty := (fun t => type_ok e t = true).
  Notation M := (fun a => aggfn_ok e a = true).

  (** ** Pieces *)

  Lemma columns_writable l cols : lower_columns e l = Ok cols -> Forall name_ok (map fst cols) ->
    schema_writable Ty (Some (build_named_struct cols)) (length cols).
  Proof.
    intros H Hn. exists cols. split; [reflexivity|]. split; [|reflexivity].
    assert (Ht : Forall (fun c => type_ok e (snd c) = true) cols).
    { eapply rlist_Forall; [|exact H]. apply Forall_all. intros c [n t] Hc. apply rbind_ok in Hc as (n' & _ & Hc).
      apply rbind_ok in Hc as (t' & Ht & Hc). injection Hc as <- <-. apply (lower_type_writable _ _ _ W T Ht). }
    apply Forall_forall. intros c Hc. rewrite Forall_forall in Hn, Ht. split; [apply Hn, in_map, Hc|apply Ht, Hc].
  Qed.

  Lemma addenda_writable ads a : standard_addenda reg ads = Ok a -> addenda_kept reg e a -> adv_writable reg e X Ty a.
  Proof.
    unfold standard_addenda. intros H K. apply rbind_ok in H as ([enh opts] & _ & H).
    assert (G : a = None \/ exists x, a = Some x /\ (ae_enhancement x <> None \/ ae_optimizations x <> [])).
    { destruct enh, opts; injection H as <-; [right|right|left; reflexivity|right]; eexists; (split; [reflexivity|]); cbn; [left|left|right]; discriminate. }
    destruct G as [-> | (x & -> & Hx)]; [exact I|]. cbn [addenda_kept adv_writable] in *. destruct K as [K1 K2]. split; [exact Hx|]. split.
    - intros d Hd. destruct (K1 d Hd) as (cols & Hc & [E| ->]); [discriminate|exact Hc].
    - apply Forall_forall. intros d Hd. destruct (K2 d Hd) as (cols & Hc & [E| ->]); [discriminate|exact Hc].
  Qed.

  Lemma outputs_made gexprs l : forall k ms m, Forall ewhole l -> lower_outputs e gexprs k l = Ok (ms, m) ->
    (Z.of_nat (length gexprs + k + length ms) <= column_limit)%Z ->
    Forall (fun i => (0 <= i < Z.of_nat (length gexprs + k + length ms))%Z) m /\
    filter (fun i => (Z.of_nat (length gexprs) <=? i)%Z) m = map Z.of_nat (seq (length gexprs + k) (length ms)) /\
    ((forall x f y, In x ms -> ms_fn x = Some f -> In (AValue y) (af_args f) -> lits_kept U F y) -> Forall (measure_writable M gexprs) ms).
  Proof.
    induction l as [|c l IH]; intros k ms m Hc H Hn; cbn [lower_outputs] in H.
    - injection H as <- <-. repeat split; constructor.
    - inversion Hc as [|? ? Hc1 Hc2]; subst. apply rbind_ok in H as (x & Hx & H).
      pose proof (last_pos_spec x gexprs 0) as Hp. destruct (last_pos 0 x gexprs) as [j|].
      + destruct Hp as [H1 H2]. apply rbind_ok in H as ([ms' m'] & Hr & H). cbn [fst snd] in H. injection H as <- <-.
        destruct (IH _ _ _ Hc2 Hr Hn) as (A & B & C). rewrite wrap_index by lia. split; [constructor; [lia|exact A]|].
        split; [|exact C]. cbn [filter]. replace (Z.of_nat (length gexprs) <=? Z.of_nat j)%Z with false by lia. exact B.
      + destruct c as [| |f a t| |]; try discriminate.
        apply rbind_ok in H as (fn & Hf & H). apply rbind_ok in H as ([ms' m'] & Hr & H). cbn [fst snd] in H.
        injection H as <- <-. cbn [length] in Hn. destruct (IH _ _ _ Hc2 Hr ltac:(lia)) as (A & B & C).
        rewrite <- Nat2Z.inj_add, wrap_index by lia. cbn [length]. split.
        { constructor; [lia|]. eapply Forall_impl; [|exact A]. cbn beta. intros i. lia. }
        split.
        { cbn [filter seq map]. replace (Z.of_nat (length gexprs) <=? Z.of_nat (length gexprs + k))%Z with true by lia.
          f_equal. rewrite B. do 2 f_equal. lia. }
        intros K. constructor.
        * split; [reflexivity|]. exists fn. split; [reflexivity|]. cbn [ewhole] in Hc1. apply fold_all in Hc1. split.
          { apply (lower_measure_ok U F e W T Hw f a t fn Hc1 Hf). intros y Hy. apply (K (mk_measure (Some fn) None) fn y); [now left|reflexivity|exact Hy]. }
          assert (E : EFunc (af_ref fn) (af_args fn) [] (af_out fn) = x); [|rewrite E; exact Hp].
          cbn [lower_measure lower_expr] in Hf, Hx. apply rbind_ok in Hf as (q1 & E1 & Hf). rewrite E1 in Hx. cbn [rbind] in Hx.
          apply rbind_ok in Hf as (q2 & E2 & Hf). rewrite E2 in Hx. cbn [rbind] in Hx.
          apply rbind_ok in Hf as (q3 & E3 & Hf). rewrite E3 in Hx. cbn [rbind] in Hx.
          apply rbind_ok in Hf as (q4 & E4 & Hf). rewrite E4 in Hx. cbn [rbind] in Hx. injection Hf as <-. now injection Hx as <-.
        * apply C. intros x0 f0 y Hx0. apply K. now right.
  Qed.

  Lemma groups_made g sets groups gexprs : lower_groups e g = Ok sets -> build_grouping_fields sets = (groups, gexprs) ->
    (match g with GSets s => Forall (Forall ewhole) s | GList s => Forall ewhole s end) ->
    (match g with GSets l => l <> [] | _ => True end) -> (forall x, In x gexprs -> lits_kept U F x) ->
    (forall g i rest, groups = [g] -> gr_refs g = i :: rest -> is_cast (nth (N.to_nat i) gexprs ENone) = false) ->
    groups_writable X gexprs groups.
  Proof.
    intros Hs Hb Hg Hn K Hcast. assert (Hb' := Hb). apply build_grouping_fields_spec in Hb' as (E & _ & Hf).
    assert (Hx : Forall (Forall (fun x => lits_kept U F x -> expr_ok e x = true)) sets).
    { assert (One : forall l xs, Forall ewhole l -> lower_exprs e l = Ok xs -> Forall (fun x => lits_kept U F x -> expr_ok e x = true) xs).
      { intros l xs Hl H. eapply rlist_Forall; [|exact H]. eapply Forall_impl; [|exact Hl]. intros c Hc y Hy Hk'. now apply (lower_expr_ok U F e W T Hw c). }
      destruct g as [l|l]; cbn [lower_groups] in Hs.
      - eapply rlist_Forall; [|exact Hs]. eapply Forall_impl; [|exact Hg]. intros c Hc y Hy. eauto.
      - apply rbind_ok in Hs as (xs & Hx & Hs). injection Hs as <-. constructor; [eauto|constructor]. }
    assert (Hl : groups <> []).
    { intros ->. destruct g as [l|l]; cbn [lower_groups] in Hs.
      - apply rlist_ok_inv in Hs. inversion Hf; subst. inversion Hs; subst. congruence.
      - apply rbind_ok in Hs as (ys & _ & Hs). injection Hs as <-. inversion Hf. }
    assert (Em : map (grouping_exprs gexprs) groups = sets /\
                 Forall (fun g => gr_exprs g = [] /\ Forall (fun i => N.to_nat i < length gexprs) (gr_refs g)) groups).
    { clear - Hf. induction Hf as [|s g sets groups [H1 H2] _ [IH1 IH2]]; [split; constructor|]. cbn [map]. split.
      - f_equal; [|exact IH1]. unfold grouping_exprs. clear - H2. induction H2 as [|x i s is Hx _ IH]; [reflexivity|]. cbn [map].
        f_equal; [|exact IH]. unfold at_pos in Hx. now apply nth_error_nth.
      - constructor; [|exact IH2]. split; [exact H1|]. clear - H2. induction H2 as [|x i s is Hx _ IH]; constructor; auto.
        unfold at_pos in Hx. apply nth_error_Some. congruence. }
    destruct Em as [Em1 Em2]. split; [exact Hl|]. split; [exact Em2|]. split; [now rewrite Em1|]. split; [|exact Hcast].
    unfold build_grouping_fields in Hb. destruct (intern_sets [] sets) as [xs gs] eqn:Ei. injection Hb as <- <-.
    destruct (intern_sets_plain _ _ _ _ _ Ei (Forall_nil _) Hx) as (A & _ & _).
    apply Forall_forall. intros x Hx'. rewrite Forall_forall in A. auto.
  Qed.

  Lemma imap_get_in {V} k (l : list (list N * V)) v : imap_get k l = Some v -> exists k', In (k', v) l.
  Proof.
    induction l as [|[k' w] l IH]; cbn [imap_get]; [discriminate|]. destruct (streqb k k').
    - intros [= <-]. exists k'. now left.
    - intros H. destruct (IH H) as (k2 & H2). exists k2. now right.
  Qed.
  Lemma bound_made what k l m : Forall (fun p => match snd p with FvInt _ => True | FvExpr c => ewhole c end) l ->
    Forall (fun a => fetch_value_ok (snd a)) l -> lower_fetch_opt e what (imap_get k l) = Ok m ->
    (forall x, m = Some (FmExpr x) -> lits_kept U F x) -> bound_kept op m -> bound_writable op X m.
  Proof.
    intros H1 H2 H K Hb. destruct (imap_get k l) as [v|] eqn:E; cbn [lower_fetch_opt] in H; [|injection H as <-; exact I].
    apply imap_get_in in E as (k' & E). rewrite Forall_forall in H1, H2. specialize (H1 _ E). specialize (H2 _ E). cbn [snd] in *.
    apply rmap_ok in H as (y & Hy & ->). destruct v as [s|c]; cbn [lower_fetch_value] in Hy.
    - destruct (parse_i64 s) as [z|] eqn:Ez; [|discriminate]. destruct (Z.ltb_spec z 0); [discriminate|]. injection Hy as <-.
      cbn [bound_kept] in Hb. unfold i64_literal in *. cbn [bound_writable is_number l_type].
      split; [apply Hb; reflexivity|]. exists z. split; [reflexivity|]. split; [assumption|]. now apply parse_i64_range in Ez.
    - apply rmap_ok in Hy as (x & Hx & ->). assert (Ho : expr_ok e x = true) by (apply (lower_expr_ok U F e W T Hw c); auto).
      cbn [bound_writable]. destruct x as [l'| | | | | |]; try exact Ho.
      destruct (is_number l') eqn:En; [|exact Ho]. exfalso. destruct c as [| | | |c]; cbn [lower_expr] in Hx.
      1-3: repeat (apply rbind_ok in Hx as (? & _ & Hx)); discriminate.
      + apply rmap_ok in Hx as (? & _ & Hx). discriminate.
      + apply rmap_ok in Hx as (l2 & Hl & [= <-]). apply lower_literal_number in Hl; auto. cbn [fetch_value_ok] in H2. destruct c as [[] ?]; auto.
  Qed.

  (** ** Relations *)

  Definition good (r : prel) (w : nat) : Prop :=
    (forall l, in_rel l r -> literal_kept l) -> (forall x, subrel x r -> rel_kept reg op e x) ->
    w = width reg r /\ writable reg op e X Ty M r w.

  Lemma parse_emit_made refs n p : parse_emit refs n = Ok p -> exists m, p = (make_emit m n, length m) /\
    Forall (fun i => in_range i32_min i32_max i = true) m.
  Proof.
    destruct p as [k w]. unfold parse_emit. intros H. apply rbind_ok in H as (m & Hm & H). injection H as <- <-. exists m. split; [reflexivity|].
    eapply rlist_Forall; [|exact Hm]. apply Forall_all. intros s z Hz. unfold field_index in Hz. now apply unwrap_ok, parse_i32_range in Hz.
  Qed.
  Lemma lower_opt_ok c x : opt_whole c -> lower_opt_expr e c = Ok x -> (forall y, x = Some y -> lits_kept U F y) -> optional X x.
  Proof.
    destruct c as [c|]; cbn [opt_whole lower_opt_expr]; intros Hc H K; [|injection H as <-; exact I].
    apply rmap_ok in H as (y & Hy & ->). cbn [optional]. apply (lower_expr_ok U F e W T Hw c); auto.
  Qed.

  Lemma lower_rows_ok rows xs : Forall (Forall ewhole) rows -> rlist (lower_exprs e) rows = Ok xs ->
    (forall row x, In row xs -> In x row -> lits_kept U F x) -> Forall (Forall X) xs.
  Proof.
    intros Hr H K. apply rlist_ok_inv in H. induction H as [|c x l xs Hx _ IH]; constructor; inversion Hr; subst.
    - apply (lower_list_ok U F e W T Hw c); auto. intros y Hy. apply (K x y); auto. now left.
    - apply IH; auto. intros row y Hy. apply K. now right.
  Qed.
  Lemma project_made n l : forall k xs m, Forall (fun a => match a with PaRef _ => True | PaExpr c => ewhole c end) l ->
    Forall (fun a => match a with PaExpr (XRef _) => False | _ => True end) l -> lower_project e n k l = Ok (xs, m) ->
    (forall x, In x xs -> lits_kept U F x) -> Forall X xs /\ Forall (fun x => is_reference x = false) xs.
  Proof.
    induction l as [|a l IH]; intros k xs m H1 H2 H K; cbn [lower_project] in H.
    - injection H as <- <-. split; constructor.
    - inversion H1; inversion H2; subst. destruct a as [s|c].
      + apply rbind_ok in H as (i & _ & H). apply rbind_ok in H as ([xs' m'] & Hp & H). injection H as <- <-. cbn [fst] in *. eauto.
      + apply rbind_ok in H as (x & Hx & H). apply rbind_ok in H as ([xs' m'] & Hp & H). injection H as <- <-. cbn [fst] in *.
        destruct (IH (S k) xs' m') as [A B]; auto. { intros y Hy. apply K. now right. }
        split; constructor; auto.
        * apply (lower_expr_ok U F e W T Hw c); auto. apply K. now left.
        * destruct c; try contradiction; cbn [lower_expr] in Hx.
          { repeat (apply rbind_ok in Hx as (? & _ & Hx)). injection Hx as <-. reflexivity. }
          { repeat (apply rbind_ok in Hx as (? & _ & Hx)). injection Hx as <-. reflexivity. }
          { repeat (apply rbind_ok in Hx as (? & _ & Hx)). injection Hx as <-. reflexivity. }
          { apply rmap_ok in Hx as (? & _ & ->). reflexivity. }
  Qed.
  Lemma sorts_made l ss : Forall (fun p => ewhole (fst p)) l -> Forall (fun p => In (snd p) sort_toks) l ->
    rlist (lower_sort_field e) l = Ok ss -> (forall s x, In s ss -> sf_expr s = Some x -> lits_kept U F x) -> Forall (sort_writable X) ss.
  Proof.
    intros H1 H2 H K. apply rlist_ok_inv in H. induction H as [|c s l ss Hs _ IH]; constructor; inversion H1; inversion H2; subst.
    - unfold lower_sort_field in Hs. apply rbind_ok in Hs as (x & Hx & Hs). apply guard_drop_ok in Hx.
      destruct (enum_number sort_directions (tl (snd c))) as [d|] eqn:Ed; [|discriminate]. injection Hs as <-.
      exists x, d. split; [reflexivity|]. split; [|eapply sort_known; eauto].
      apply (lower_expr_ok U F e W T Hw (fst c)); auto. eapply K; [now left|reflexivity].
    - apply IH; auto. intros s' x Hs'. apply K. now right.
  Qed.

  Lemma input_lits r i : rel_input i r -> (forall l, in_rel l r -> literal_kept l) -> forall l, in_rel l i -> literal_kept l.
  Proof. intros Hi H l Hl. apply H. eapply ir_input; eauto. Qed.
  Lemma input_kept r i : In i (inputs r) -> (forall x, subrel x r -> rel_kept reg op e x) -> forall x, subrel x i -> rel_kept reg op e x.
  Proof. intros Hi H x Hx. apply H. eapply subrel_input; eauto. Qed.

  Lemma width_made r k n m : rel_emit r = Some k -> k = make_emit m n ->
    (k = EmDirect -> width reg r = n) -> length m = width reg r.
  Proof.
    intros H -> D. rewrite (made_width m n). destruct (make_emit m n) as [|m'] eqn:E; [symmetry; now apply D|].
    destruct r; cbn [width]; rewrite H; reflexivity.
  Qed.
  Lemma within r k n m : refers_within r n -> rel_emit r = Some k -> k = EmEmit m -> Forall (fun i => 0 <= i < Z.of_nat n)%Z m.
  Proof. intros H E ->. unfold refers_within in H. now rewrite E in H. Qed.

  Lemma lower_rel_good y cs ads adv r w : line_known y -> Forall (fun c => good (fst c) (snd c)) cs ->
    standard_addenda reg ads = Ok adv -> lower_rel e y cs adv = Ok (r, w) -> good r w.
  Proof.
    intros (Hy & Hsh & Hsg & Hf) Hc Ha H Kl Kr.
    assert (Kr0 : rel_kept reg op e r) by (apply Kr; constructor).
    destruct Kr0 as (Lim & Nj & Kp).
    assert (Kx : forall x, rel_expr x r -> lits_kept U F x). { intros x Hx l Hl. apply Kl. eapply ir_here; eauto. }
    assert (One : forall s i, one_child s cs = Ok i -> rel_input i r -> In i (inputs r) ->
              total cs = width reg i /\ writable reg op e X Ty M i (width reg i)).
    { intros s i Hi R1 R2. destruct (one_child_ok _ _ _ Hi) as (k & ->). inversion Hc as [|? ? G _]; subst. cbn [fst snd] in G.
      destruct (G (input_lits _ _ R1 Kl) (input_kept _ _ R2 Kr)) as [E Wi]. unfold total. cbn [map snd list_sum fold_right].
      rewrite Nat.add_0_r. subst k. auto. }
    assert (Two : forall s p, two_children s cs = Ok p ->
              (rel_input (fst p) r /\ rel_input (snd p) r) -> In (fst p) (inputs r) /\ In (snd p) (inputs r) ->
              total cs = width reg (fst p) + width reg (snd p) /\ writable reg op e X Ty M (fst p) (width reg (fst p)) /\
              writable reg op e X Ty M (snd p) (width reg (snd p))).
    { intros s p Hp [R1 R2] [R3 R4]. destruct cs as [|[a1 a2] [|[b1 b2] [|? ?]]]; try discriminate. injection Hp as <-.
      inversion Hc as [|? ? G1 Y]; inversion Y as [|? ? G2 _]; subst. cbn [fst snd] in *.
      destruct (G1 (input_lits _ _ R1 Kl) (input_kept _ _ R3 Kr)) as [-> W1].
      destruct (G2 (input_lits _ _ R2 Kl) (input_kept _ _ R4 Kr)) as [-> W2].
      unfold total. cbn [map snd list_sum fold_right]. rewrite Nat.add_0_r. auto. }
    destruct y; cbn [lower_rel] in H; try discriminate.
    - (* Read *)
      destruct cs; [|discriminate]. apply rbind_ok in H as (names & Hn & H). apply rbind_ok in H as ([[cols c] n] & Ho & H).
      injection H as <- <-. cbn [rel_kept rd_type rd_schema rd_adv] in Kp. destruct Kp as (K1 & K2 & _ & K4).
      specialize (K1 _ eq_refl). specialize (K2 _ eq_refl). cbn [build_named_struct ns_names] in K2.
      assert (Ns : names <> []). { apply rlist_ok_inv in Hn. intros ->. inversion Hn; subst. now apply Hsh. }
      apply (addenda_writable _ _ Ha) in K4.
      destruct o as [l|l refs]; cbn [lower_output] in Ho.
      + apply rbind_ok in Ho as (cols' & Hl & Ho). injection Ho as -> <- <-. split.
        * cbn [width rel_emit rel_common_of rd_common direct_common rc_emit rd_schema build_named_struct ns_names]. now rewrite map_length.
        * eapply w_read; eauto using columns_writable.
      + apply rbind_ok in Ho as (cols' & Hl & Ho). apply guard_drop_ok in Hl. destruct refs as [refs|].
        * apply rbind_ok in Ho as (m & Hm & Ho). injection Ho as -> <- <-. split; [reflexivity|].
          eapply w_read; eauto using columns_writable. right. exists m. repeat split.
          eapply rlist_Forall; [|exact Hm]. apply Forall_all. intros s z Hz. unfold field_index in Hz. now apply unwrap_ok, parse_i32_range in Hz.
        * injection Ho as -> <- <-. split.
          { cbn [width rel_emit rel_common_of rd_common direct_common rc_emit rd_schema build_named_struct ns_names]. now rewrite map_length. }
          eapply w_read; eauto using columns_writable.
    - (* Virtual *)
      destruct cs; [|discriminate]. apply rbind_ok in H as (f' & Hfl & H). apply guard_drop_ok in Hfl. apply rbind_ok in H as (rows' & Hr & H).
      apply rbind_ok in H as (cols' & Hl & H). injection H as <- <-. destruct Hy as (Y1 & Y2 & Y3).
      cbn [rel_kept rd_type rd_schema rd_adv] in Kp. destruct Kp as (_ & K2 & _ & K4). specialize (K2 _ eq_refl).
      apply (addenda_writable _ _ Ha) in K4. split.
      + cbn [width rel_emit rel_common_of rd_common direct_common rc_emit rd_schema build_named_struct ns_names]. now rewrite map_length.
      + eapply w_virtual; eauto using columns_writable.
        * eapply lower_opt_ok; eauto. intros y ->. apply Kx. now apply re_read.
        * eapply lower_rows_ok; eauto. intros row x Hrow Hx. apply Kx. eapply re_row; eauto. reflexivity.
    - (* Filter *)
      apply rbind_ok in H as (i & Hi & H). apply rbind_ok in H as (x' & Hx & H). apply guard_drop_ok in Hx. apply rbind_ok in H as (p & Hp & H).
      apply parse_emit_made in Hp as (m & -> & _). injection H as <- <-. cbn [fst snd] in *.
      destruct (One _ _ Hi ltac:(constructor) ltac:(now left)) as [Et Wi]. cbn [rel_kept] in Kp. destruct Kp as [K1 K2].
      unfold available in *. cbn [inputs opt_list map list_sum fold_right] in *. rewrite Nat.add_0_r in *. rewrite Et in *. split.
      + eapply width_made; [reflexivity|reflexivity|]. intros E. cbn [width rel_emit rel_common_of emit_common rc_emit]. now rewrite E.
      + eapply w_filter; [exact Wi| |exact (addenda_writable _ _ Ha K1)|].
        * apply (lower_expr_ok U F e W T Hw _ _ Hy Hx). apply Kx. constructor.
        * apply emits_made; auto. intros E. eapply within; [exact K2|reflexivity|exact E].
    - (* Project *)
      apply rbind_ok in H as (i & Hi & H). apply rbind_ok in H as ([xs m] & Hp & H). injection H as <- <-. cbn [fst snd] in *.
      destruct (One _ _ Hi ltac:(constructor) ltac:(now left)) as [Et Wi]. cbn [rel_kept] in Kp. destruct Kp as (K1 & K2 & K3).
      unfold available in *. cbn [inputs opt_list map list_sum fold_right] in *. rewrite Nat.add_0_r in *. rewrite Et in *. split.
      + eapply width_made; [reflexivity|reflexivity|]. intros E. cbn [width rel_emit rel_common_of emit_common rc_emit]. now rewrite E.
      + destruct (project_made _ _ _ _ _ Hy Hsh Hp) as [A B]. { intros x Hx. apply Kx. now constructor. }
        eapply w_project; [exact Wi|exact A|exact B|exact (addenda_writable _ _ Ha K1)| |].
        * apply emits_made; auto. intros E. eapply within; [exact K2|reflexivity|exact E].
        * destruct (make_emit m (width reg i + length xs)) as [|m'] eqn:E.
          { destruct (make_emit_spec m _ Lim) as [_ [E2 _]]. rewrite (E2 E). apply in_order_all. }
          { destruct (make_emit_cases m (width reg i + length xs)) as [[E' _]|E']; [congruence|]. rewrite E in E'. injection E' as ->. now apply K3. }
    - (* Aggregate *)
      apply rbind_ok in H as (i & Hi & H). apply rbind_ok in H as (sets & Hs & H).
      destruct (build_grouping_fields sets) as [groups gexprs] eqn:Eb. apply rbind_ok in H as ([ms m] & Hp & H). injection H as <- <-.
      cbn [fst snd] in *. destruct (One _ _ Hi ltac:(constructor) ltac:(now left)) as [Et Wi]. cbn [rel_kept] in Kp. destruct Kp as (K1 & K2).
      destruct Hy as [Y1 Y2]. unfold available in *. destruct (outputs_made _ _ _ _ _ Y2 Hp) as (A & B & C).
      { now rewrite Nat.add_0_r. }
      rewrite Nat.add_0_r in *. split.
      + eapply width_made; [reflexivity|reflexivity|]. intros E. cbn [width rel_emit rel_common_of emit_common rc_emit]. now rewrite E.
      + eapply w_aggregate; [exact Wi| | |exact (addenda_writable _ _ Ha K1)|apply emits_made; auto|exact B].
        * eapply groups_made; eauto. intros x Hx. apply Kx. now constructor.
        * apply C. intros x f y Hx Hf' Hy. apply Kx. eapply re_measure; eauto.
    - (* Sort *)
      apply rbind_ok in H as (i & Hi & H). apply rbind_ok in H as (ss & Hs & H). apply rbind_ok in H as (p & Hp & H).
      apply parse_emit_made in Hp as (m & -> & _). injection H as <- <-. cbn [fst snd] in *.
      destruct (One _ _ Hi ltac:(constructor) ltac:(now left)) as [Et Wi]. cbn [rel_kept] in Kp. destruct Kp as (K1 & K2 & K3).
      unfold available in *. cbn [inputs opt_list map list_sum fold_right] in *. rewrite Nat.add_0_r in *. rewrite Et in *. split.
      + eapply width_made; [reflexivity|reflexivity|]. intros E. cbn [width rel_emit rel_common_of emit_common rc_emit]. now rewrite E.
      + eapply w_sort; [exact Wi|exact K3| |exact (addenda_writable _ _ Ha K1)|].
        * eapply sorts_made; eauto. intros s x Hs' Hx. apply Kx. eapply re_sort; eauto.
        * apply emits_made; auto. intros E. eapply within; [exact K2|reflexivity|exact E].
    - (* Fetch *)
      apply rbind_ok in H as (i & Hi & H). apply rbind_ok in H as (u & _ & H). apply rbind_ok in H as (p & Hp & H).
      apply rbind_ok in H as (n & Hn & H). apply rbind_ok in H as (o & Ho & H).
      apply parse_emit_made in Hp as (m & -> & _). injection H as <- <-. cbn [fst snd] in *.
      destruct (One _ _ Hi ltac:(constructor) ltac:(now left)) as [Et Wi]. cbn [rel_kept] in Kp. destruct Kp as (K1 & K2 & K3 & K4).
      unfold available in *. cbn [inputs opt_list map list_sum fold_right] in *. rewrite Nat.add_0_r in *. rewrite Et in *. split.
      + eapply width_made; [reflexivity|reflexivity|]. intros E. cbn [width rel_emit rel_common_of emit_common rc_emit]. now rewrite E.
      + eapply w_fetch; [exact Wi| | |exact (addenda_writable _ _ Ha K1)|].
        * eapply bound_made; eauto. intros x ->. apply Kx. constructor.
        * eapply bound_made; eauto. intros x ->. apply Kx. constructor.
        * apply emits_made; auto. intros E. eapply within; [exact K2|reflexivity|exact E].
    - (* Join *)
      apply rbind_ok in H as ([il ir] & Hlr & H). apply rbind_ok in H as (jt & Hj & H). apply rbind_ok in H as (x' & Hx & H). apply guard_drop_ok in Hx.
      apply rbind_ok in H as (post' & Hp & H). apply guard_drop_ok in Hp. apply rbind_ok in H as (p & Hm & H).
      apply parse_emit_made in Hm as (m & -> & _). injection H as <- <-. cbn [fst snd] in *. destruct Hy as (Y1 & Y2 & Y3).
      destruct (Two _ _ Hlr) as (Et & W1 & W2). { split; constructor. } { split; [now left|right; now left]. } cbn [fst snd] in *.
      cbn [rel_kept] in Kp. destruct Kp as (K1 & K2). apply unwrap_ok in Hj.
      destruct (join_known _ _ Y1 Hj) as (name & En & Ht & Hout). destruct (Hout (width reg il) (width reg ir)) as (shown & Hs & Hd).
      destruct (K2 _ _ En Hs) as [K3 K4].
      unfold available in Lim. cbn [inputs opt_list app map list_sum fold_right] in Lim. rewrite Nat.add_0_r in Lim. rewrite Et in *. split.
      + eapply width_made; [reflexivity|reflexivity|]. intros E. cbn [width rel_emit rel_common_of emit_common rc_emit]. now rewrite E.
      + eapply w_join; [exact W1|exact W2| | |exact (addenda_writable _ _ Ha K1)|exact En|exact Hs|].
        * apply (lower_expr_ok U F e W T Hw _ _ Y2 Hx). apply Kx. constructor.
        * eapply lower_opt_ok; eauto. intros y ->. apply Kx. constructor.
        * apply emits_made; auto.
          { intros E. apply Hd. destruct (Z_le_gt_dec jt 4) as [Hle|Hgt]; [exact Hle|]. exfalso. apply Nj. cbn [narrow_join]. split; [|lia].
            cbn [rel_emit rel_common_of emit_common rc_emit]. now rewrite E. }
          { intros E. eapply within; [exact K3|reflexivity|exact E]. }
    - (* Set *)
      destruct cs as [|c1 [|c2 cs]]; try discriminate. destruct (forallb _ _) eqn:Ew; [|discriminate].
      apply rbind_ok in H as (o' & Ho & H). apply rbind_ok in H as (p & Hm & H). apply parse_emit_made in Hm as (m & -> & _).
      injection H as <- <-. cbn [fst snd] in *. apply unwrap_ok in Ho. destruct (set_known _ _ Hy Ho) as (name & En).
      assert (Each : forall c, In c (c1 :: c2 :: cs) -> snd c = snd c1 /\ snd c = width reg (fst c) /\ writable reg op e X Ty M (fst c) (width reg (fst c))).
      { intros c Hin. rewrite forallb_forall in Ew. split; [apply Nat.eqb_eq, (Ew c Hin)|]. rewrite Forall_forall in Hc.
        destruct (Hc c Hin) as [E Wi].
        - eapply input_lits; [|exact Kl]. apply ri_set. exact (in_map fst (c1 :: c2 :: cs) c Hin).
        - eapply input_kept; [|exact Kr]. exact (in_map fst (c1 :: c2 :: cs) c Hin).
        - rewrite <- E. auto. }
      destruct (Each c1 (or_introl eq_refl)) as (_ & E1 & W1). destruct (Each c2 (or_intror (or_introl eq_refl))) as (E2 & E2' & W2).
      cbn [rel_kept] in Kp. destruct Kp as [K1 K2]. unfold available in *. cbn [map hd] in *. rewrite E1 in *. split.
      + eapply width_made; [reflexivity|reflexivity|]. intros E. cbn [width rel_emit rel_common_of emit_common rc_emit]. now rewrite E.
      + eapply w_set with (n := width reg (fst c1)); [exact W1| | |exact (addenda_writable _ _ Ha K1)|exact En|].
        * now rewrite <- E2, E2'.
        * intros i Hin. apply in_map_iff in Hin as (c & <- & Hin). destruct (Each c) as (E3 & E3' & W3); [now right; right|]. now rewrite <- E3, E3'.
        * apply emits_made; auto. intros E. eapply within; [exact K2|reflexivity|exact E].
    - (* Cross *)
      apply rbind_ok in H as ([il ir] & Hlr & H). apply rbind_ok in H as (p & Hm & H).
      apply parse_emit_made in Hm as (m & -> & _). injection H as <- <-. cbn [fst snd] in *.
      destruct (Two _ _ Hlr) as (Et & W1 & W2). { split; constructor. } { split; [now left|right; now left]. } cbn [fst snd] in *.
      cbn [rel_kept] in Kp. destruct Kp as (K1 & K2).
      unfold available in *. cbn [inputs opt_list app map list_sum fold_right] in *. rewrite Nat.add_0_r in *. rewrite Et in *. split.
      + eapply width_made; [reflexivity|reflexivity|]. intros E. cbn [width rel_emit rel_common_of emit_common rc_emit]. now rewrite E.
      + eapply w_cross; [exact W1|exact W2|exact (addenda_writable _ _ Ha K1)|].
        apply emits_made; auto. intros E. eapply within; [exact K2|reflexivity|exact E].
  Qed.

  Lemma list_made l : Forall (fun c => good (fst c) (snd c)) l ->
    (forall i, In i (map fst l) -> forall x, in_rel x i -> literal_kept x) ->
    (forall i, In i (map fst l) -> forall x, subrel x i -> rel_kept reg op e x) ->
    writable_list reg op e X Ty M (map fst l) (map (width reg) (map fst l)).
  Proof.
    induction 1 as [|c l Hc _ IH]; intros K1 K2; cbn [map]; [constructor|]. constructor.
    - destruct Hc as [E Wc]; [apply K1; now left|apply K2; now left|]. now rewrite <- E.
    - apply IH; intros i Hi; [apply K1|apply K2]; now right.
  Qed.
  Lemma resolve_ok t line name a d : resolve reg t line name a = Ok d -> parse_with_type reg t name a = Ok d.
  Proof. unfold resolve. destruct (parse_with_type reg t name a) as [|[]|]; try discriminate. intros [= <-]. reflexivity. Qed.

  Lemma detail_made line name a d widths : resolve reg XtRelation line name a = Ok d -> detail_kept reg e XtRelation d widths ->
    exists cols, detail_writable reg e X Ty XtRelation d widths cols /\ length (xa_columns a) = length cols /\
      detail_width reg (Some d) widths = length cols.
  Proof.
    intros H (cols & Hd & _). exists cols. split; [exact Hd|]. apply resolve_ok in H. destruct Hd as (n & a' & D & _ & _ & _ & E).
    destruct (Hk _ _ _ widths H) as (n2 & a2 & D2 & E2). cbn [detail_width]. rewrite D2. rewrite D in D2. injection D2 as <- <-.
    subst cols. auto.
  Qed.

  Lemma parse_relation_good y line ads cs r w : readable y -> Forall (fun c => good (fst c) (snd c)) cs ->
    parse_relation reg e y line ads cs = Ok (r, w) -> good r w.
  Proof.
    intros Hy Hc H. apply readable_known in Hy.
    assert (G : (let? adv := standard_addenda reg ads in lift_plan line (lower_rel e y cs adv)) = Ok (r, w) -> good r w).
    { intros H'. apply rbind_ok in H' as (adv & Ha & H'). apply lift_plan_ok in H'. eapply lower_rel_good; eauto. }
    destruct y; try (apply G; exact H); cbn [parse_relation] in H; clear G; intros Kl Kr;
      assert (Kr0 : rel_kept reg op e r) by (apply Kr; constructor); destruct Kr0 as (_ & _ & Kp).
    - apply rbind_ok in H as ([d adv] & Hp & H). apply lift_plan_ok in H. destruct cs; [|discriminate].
      apply rbind_ok in H as (cols' & Hl & H). injection H as <- <-. cbn [fst snd rel_kept rd_type rd_schema rd_adv] in Kp.
      destruct Kp as (_ & K2 & K3 & K4). specialize (K2 _ eq_refl). specialize (K3 _ eq_refl). split.
      + cbn [width rel_emit rel_common_of rd_common direct_common rc_emit rd_schema build_named_struct ns_names]. now rewrite map_length.
      + apply w_table.
        * eapply columns_writable; eauto.
        * destruct K3 as (xcols & Hd & [E| ->]); [discriminate|exact Hd].
        * unfold extension_read_addenda in Hp. destruct (filter is_table ads) as [|a [|? ?]]; try discriminate.
          apply rbind_ok in Hp as (d' & _ & Hp). apply rbind_ok in Hp as (adv' & Ha & Hp). injection Hp as <- <-. eapply addenda_writable; eauto.
    - destruct ads; [|discriminate]. apply rbind_ok in H as (a & _ & H). destruct (child_count_ok k (length cs)) eqn:Ek; [|discriminate].
      apply rbind_ok in H as (d & Hd & H). injection H as <- <-.
      destruct k; cbn [create_rel] in *; cbn [child_count_ok] in Ek; apply Nat.eqb_eq in Ek || clear Ek.
      + destruct (detail_made _ _ _ _ _ Hd Kp) as (xcols & D & E1 & E2). rewrite E1. split; [|now apply w_leaf].
        cbn [width rel_emit rel_common_of direct_common rc_emit]. congruence.
      + destruct cs as [|c [|? ?]]; try discriminate. cbn [map hd_error] in *. inversion Hc as [|? ? G _]; subst.
        destruct G as [Ew Wc]. { eapply input_lits; [|exact Kl]. constructor. } { eapply input_kept; [|exact Kr]. now left. }
        cbn [rel_kept] in Kp. destruct (detail_made _ _ _ _ _ Hd Kp) as (xcols & D & E1 & E2). rewrite E1. split.
        * cbn [width rel_emit rel_common_of direct_common rc_emit]. congruence.
        * eapply w_single; [|exact D]. now rewrite <- Ew.
      + cbn [rel_kept] in Kp. destruct (detail_made _ _ _ _ _ Hd Kp) as (xcols & D & E1 & E2). rewrite E1. split.
        * cbn [width rel_emit rel_common_of direct_common rc_emit]. congruence.
        * eapply w_multi; [|exact D]. apply list_made; auto.
          { intros i Hi. eapply input_lits; [|exact Kl]. now constructor. }
          { intros i Hi. eapply input_kept; [|exact Kr]. exact Hi. }
  Qed.

  Lemma build_rel_good n r w : all_lines readable n -> build_rel reg e n = Ok (r, w) -> good r w.
  Proof. apply build_rel_ind. intros y line ads cs r' w' Hy Hc H. eapply parse_relation_good; eauto. Qed.
End Rels.
