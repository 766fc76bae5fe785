(** Writing a plan of the fragment reports no error; the fragment grows with the
    expressions, types and aggregate functions allowed. *)
From Coq Require Import String List NArith ZArith Bool Lia.
From Verif Require Import Base BaseFacts Names SpecNames SimpleExt SimpleExtFacts SpecExt Out Anchors Types SpecTypes TypesFacts
  Literals SpecLiterals LiteralsFacts Exprs SpecExprs ExprsFacts ExprEq ExtArgs Registry Rels SpecRels SpecPlan OutClosed
  ExtArgsFacts RelTextFacts VirtualFacts PlanFacts.
Import ListNotations.
Local Open Scope string_scope.
Local Open Scope list_scope.
Local Open Scope nat_scope.

(** ** Larger sets of expressions *)
Section Larger.
  Context (U : Unicode) (F : Floats).
  Variable (reg : registry) (op : options) (e : exts).
  Variables (X X' : pexpr -> Prop) (T T' : ptype -> Prop) (M M' : aggfn -> Prop).
  Hypotheses (HX : forall x, X x -> X' x) (HT : forall t, T t -> T' t) (HM : forall a, M a -> M' a).

  Lemma value_larger v : value_writable e X v -> value_writable e X' v.
  Proof.
    revert v. apply (xvalue_ind2 (fun v => value_writable e X v -> value_writable e X' v)); try (intros; match goal with H : value_writable _ _ _ |- _ => inversion H; subst end; constructor; auto; fail).
    - intros l IH H. inversion H; subst. constructor. rewrite Forall_forall in *. auto.
  Qed.
  Lemma args_larger a : args_writable e X T a -> args_writable e X' T' a.
  Proof.
    intros (H1 & H2 & H3 & H4). split; [|split; [|split; [exact H3|]]].
    - eapply Forall_impl; [|exact H1]. exact value_larger.
    - eapply Forall_impl; [|exact H2]. intros p (A & B & C). split; [exact A|split; [exact B|now apply value_larger]].
    - eapply Forall_impl; [|exact H4]. intros [n t|x]; cbn [column_writable]; intros [A B]; auto.
  Qed.
  Lemma detail_larger t d widths cols : detail_writable reg e X T t d widths cols -> detail_writable reg e X' T' t d widths cols.
  Proof.
    intros (name & a & H1 & H2 & H3 & H4 & H5). exists name, a. split; [exact H1|split; [exact H2|split; [exact H3|split; [|exact H5]]]].
    now apply args_larger.
  Qed.
  Lemma adv_larger a : adv_writable reg e X T a -> adv_writable reg e X' T' a.
  Proof.
    destruct a as [a|]; [|auto]. intros (H1 & H2 & H3). split; [exact H1|split].
    - intros d Hd. now apply detail_larger, H2.
    - eapply Forall_impl; [|exact H3]. intros d. apply detail_larger.
  Qed.
  Lemma schema_larger s n : schema_writable T s n -> schema_writable T' s n.
  Proof.
    intros (cols & H1 & H2 & H3). exists cols. split; [exact H1|split; [|exact H3]]. eapply Forall_impl; [|exact H2].
    intros c [A B]. auto.
  Qed.
  Lemma exprs_larger xs : Forall X xs -> Forall X' xs.
  Proof. apply Forall_impl, HX. Qed.
  Lemma optional_larger x : optional X x -> optional X' x.
  Proof. destruct x; cbn [optional]; auto. Qed.
  Lemma bound_larger m : bound_writable op X m -> bound_writable op X' m.
  Proof.
    destruct m as [[x|]|]; cbn [bound_writable]; auto. destruct x; auto. destruct (is_number l); auto.
  Qed.

  Theorem relation_larger r w : writable reg op e X T M r w -> writable reg op e X' T' M' r w.
  Proof.
    intros H. revert r w H.
    apply (writable_min U F reg op e X T M (writable reg op e X' T' M') (writable_list reg op e X' T' M')); intros;
      try (econstructor; eauto using adv_larger, schema_larger, exprs_larger, optional_larger, bound_larger, detail_larger; fail).
    - econstructor; eauto using adv_larger, schema_larger, optional_larger.
      eapply Forall_impl; [|eassumption]. exact exprs_larger.
    - econstructor; eauto using adv_larger.
      + destruct H1 as (A & B & C & D & E). split; [exact A|split; [exact B|split; [exact C|split; [now apply exprs_larger|exact E]]]].
      + eapply Forall_impl; [|eassumption]. intros m0 (A & a & B & C & D). split; [exact A|]. exists a. auto.
    - econstructor; eauto using adv_larger. eapply Forall_impl; [|eassumption]. intros f (x & d & A & B & C). exists x, d. auto.
  Qed.
  Theorem plan_rel_larger p : plan_rel_writable reg op e X T M p -> plan_rel_writable reg op e X' T' M' p.
  Proof.
    destruct p as [r|names [r|]|]; cbn [plan_rel_writable]; auto.
    - intros (w & H). exists w. now apply relation_larger.
    - intros (Hn & w & H). split; [exact Hn|]. exists w. now apply relation_larger.
  Qed.
End Larger.

(** ** Silence *)
Section Quiet.
  Context (U : Unicode) (F : Floats).
  Variable (reg : registry) (op : options) (e : exts).
  Variables (X : pexpr -> Prop) (T : ptype -> Prop) (M : aggfn -> Prop).
  Hypotheses (HX : forall x, X x -> quiet (expr_out op e x)) (HT : forall t, T t -> quiet (type_out op e t))
    (HM : forall a, M a -> quiet (aggfn_out op e a)).

  Lemma quiet_fold l : Forall quiet l -> quiet (fold_right oapp onil l).
  Proof. induction 1; cbn [fold_right]; auto with quiet. Qed.
  Lemma quiet_map {A} (f : A -> out) (P : A -> Prop) l : (forall x, P x -> quiet (f x)) -> Forall P l -> Forall quiet (map f l).
  Proof. intros H HP. apply Forall_map. eapply Forall_impl; [|exact HP]. exact H. Qed.

  Lemma quiet_value v : value_writable e X v -> quiet (xvalue_out op e v).
  Proof.
    revert v. apply (xvalue_ind2 (fun v => value_writable e X v -> quiet (xvalue_out op e v))); cbn [xvalue_out]; auto with quiet.
    - intros x H. inversion H.
    - intros x H. inversion H; subst. auto.
    - intros l IH H. inversion H; subst. apply quiet_app; [apply quiet_txt|]. apply quiet_app; [|auto with quiet].
      apply quiet_sep. apply Forall_map. rewrite Forall_forall in *. auto.
  Qed.
  Lemma quiet_values l : Forall (value_writable e X) l -> Forall quiet (map (xvalue_out op e) l).
  Proof. apply quiet_map, quiet_value. Qed.
  Lemma quiet_column c : column_writable e X T c -> quiet (xcolumn_out op e c).
  Proof. destruct c as [n t|x]; cbn [column_writable xcolumn_out]; intros [A B]; auto with quiet. Qed.
  Lemma quiet_columns l : Forall (column_writable e X T) l -> Forall quiet (map (xcolumn_out op e) l).
  Proof. apply quiet_map, quiet_column. Qed.
  Lemma quiet_xarglist a : args_writable e X T a -> quiet (xarglist_out op e a).
  Proof.
    intros (H1 & H2 & _). unfold xarglist_out.
    assert (Q : quiet (osep (L ", ") (map (xvalue_out op e) (xa_positional a) ++ map (xnamed_out op e) (xa_named a)))).
    { apply quiet_sep, Forall_app. split; [now apply quiet_values|]. apply (quiet_map _ (named_writable e X)); [|exact H2].
      intros p (_ & _ & Hv). unfold xnamed_out. apply quiet_app; [apply quiet_txt|now apply quiet_value]. }
    destruct (xa_positional a), (xa_named a); auto with quiet.
  Qed.
  Lemma quiet_addendum prefix t d : detail_writable reg e X T t d [] [] ->
    quiet (addendum_out op e prefix (decode_with_type reg t d [])).
  Proof.
    intros (name & a & H1 & _ & _ & H4 & H5). rewrite H1. unfold addendum_out, xargs_out. rewrite H5.
    repeat (apply quiet_app; auto with quiet). now apply quiet_xarglist.
  Qed.
  Lemma quiet_adv a : adv_writable reg e X T a -> Forall quiet (adv_lines reg op e a).
  Proof.
    destruct a as [a|]; [|constructor]. intros (_ & H2 & H3). cbn [adv_lines]. apply Forall_app. split.
    - destruct (ae_enhancement a); [|constructor]. constructor; [|constructor]. now apply quiet_addendum, H2.
    - eapply quiet_map; [|exact H3]. intros d. apply quiet_addendum.
  Qed.

  (** *** Headers *)
  Definition args_quiet (a : rel_args) : Prop :=
    match a with RaInline p n | RaRows p n => Forall quiet p /\ Forall (fun x => quiet (snd x)) n end.
  Definition header_quiet (h : header) : Prop :=
    quiet (hd_name h) /\ match hd_args h with Some a => args_quiet a | None => True end /\ Forall quiet (hd_cols h) /\
    (hd_explicit h = true /\ hd_args h <> None \/ Forall quiet (shown_columns op h)) /\ Forall quiet (hd_addenda h).
  Lemma quiet_named n : Forall (fun x : list N * out => quiet (snd x)) n -> Forall quiet (map named_out n).
  Proof. apply quiet_map. intros x Hx. unfold named_out. auto with quiet. Qed.
  Lemma quiet_rows d b l : Forall quiet l -> quiet (row_lines op d b l).
  Proof.
    induction 1 as [|o l Ho Hl IH]; [apply quiet_nil|]. cbn [row_lines]. destruct l; unfold row_line; auto 6 with quiet.
  Qed.
  Lemma quiet_suffix em : quiet (emit_suffix_out em).
  Proof.
    destruct em as [[|m]|]; cbn [emit_suffix_out]; auto with quiet. apply quiet_app; [apply quiet_txt|].
    apply quiet_sep, Forall_map, Forall_forall. intros; apply quiet_txt.
  Qed.
  Lemma quiet_header d h : header_quiet h -> quiet (header_out op d h).
  Proof.
    intros (H1 & H2 & H3 & H4 & _). unfold header_out.
    assert (Q : hd_args h <> None -> quiet (output_clause op h)).
    { intros Hn. unfold output_clause. destruct (hd_explicit h) eqn:E.
      - apply quiet_app; [apply quiet_txt|]. apply quiet_app; [now apply quiet_sep|apply quiet_suffix].
      - destruct H4 as [[H4 _]|H4]; [discriminate|]. auto with quiet. }
    apply quiet_app; [apply quiet_txt|]. apply quiet_app; [exact H1|]. apply quiet_app; [apply quiet_txt|]. apply quiet_app; [|apply quiet_txt].
    destruct (hd_args h) as [[p n|p n]|].
    - destruct H2 as [A B]. apply quiet_app; [|apply quiet_app; [apply quiet_txt|now apply Q]]. unfold arguments_out.
      assert (quiet (osep (L ", ") (p ++ map named_out n))) by (apply quiet_sep, Forall_app; split; [exact A|now apply quiet_named]).
      destruct p, n; auto with quiet.
    - destruct H2 as [A B]. apply quiet_app; [apply quiet_txt|]. apply quiet_app; [now apply quiet_rows|].
      apply quiet_app; [now apply quiet_rows, quiet_named|]. apply quiet_app; [apply quiet_txt|now apply Q].
    - destruct H4 as [[_ H4]|H4]; [congruence|]. now apply quiet_sep.
  Qed.
  Lemma quiet_view h vs d : header_quiet h -> (forall v, In v vs -> forall d, quiet (view_out op d v)) ->
    quiet (view_out op d (View h (map Some vs))).
  Proof.
    intros Hh Hv. cbn [view_out]. apply quiet_app; [now apply quiet_header|]. apply quiet_app.
    - apply quiet_fold. eapply quiet_map; [|apply Hh]. intros a Ha. auto with quiet.
    - apply quiet_fold. rewrite map_map. apply Forall_map, Forall_forall. intros v Hin. apply quiet_app; [apply quiet_txt|now apply Hv].
  Qed.

  Lemma quiet_refs n : Forall quiet (ref_columns n).
  Proof. apply Forall_map, Forall_forall. intros; apply quiet_txt. Qed.
  Lemma quiet_exprs xs : Forall X xs -> Forall quiet (map (expr_out op e) xs).
  Proof. apply quiet_map, HX. Qed.
  Lemma quiet_shown h c shown all k w : emits c shown all k w -> hd_emit h = get_emit c -> length (hd_cols h) = shown ->
    Forall quiet (hd_cols h) -> Forall quiet (shown_columns op h).
  Proof.
    intros He Eh Hl Hc. unfold shown_columns. destruct (op_show_emit op); [exact Hc|]. rewrite Eh.
    destruct He as [|m shown all _ _ Hm _]; cbn [get_emit direct emit rc_emit]; [exact Hc|]. apply Forall_map.
    eapply Forall_impl; [|exact Hm]. intros i Hi. cbn beta in Hi. unfold zget. replace (i <? 0)%Z with false by (symmetry; apply Z.ltb_ge; lia).
    destruct (nth_error (hd_cols h) (Z.to_nat i)) eqn:En.
    - apply nth_error_In in En. rewrite Forall_forall in Hc. auto.
    - apply nth_error_None in En. lia.
  Qed.
  Lemma quiet_plain h : match hd_emit h with Some (EmEmit _) => False | _ => True end -> Forall quiet (hd_cols h) ->
    Forall quiet (shown_columns op h).
  Proof. intros H Hc. unfold shown_columns. destruct (op_show_emit op), (hd_emit h) as [[]|]; easy. Qed.

  Lemma quiet_fields (cols : list (list N * ptype)) : Forall (fun c => name_ok (fst c) /\ T (snd c)) cols ->
    Forall quiet (zip_fields op e (map fst cols) (map snd cols)) /\ length (zip_fields op e (map fst cols) (map snd cols)) = length cols.
  Proof.
    induction 1 as [|[n t] cols [_ Ht] _ [IH1 IH2]]; [split; constructor|]. cbn [map fst snd zip_fields] in *. split.
    - constructor; [|exact IH1]. unfold field_out, oexpect. auto with quiet.
    - cbn [length]. now rewrite IH2.
  Qed.
  Lemma quiet_schema r n : schema_writable T (rd_schema r) n ->
    Forall quiet (read_columns op e r) /\ length (read_columns op e r) = n.
  Proof.
    intros (cols & E & Hc & ->). unfold read_columns. rewrite E. cbn [ns_names ns_struct]. now apply quiet_fields.
  Qed.

  Definition rel_quiet (r : prel) (w : nat) : Prop :=
    emitted (view_of reg op e r) = w /\ forall d, quiet (view_out op d (view_of reg op e r)).

  Lemma relation_node h vs w c shown all k :
    header_quiet h -> emits c shown all k w -> hd_emit h = get_emit c -> length (hd_cols h) = shown ->
    (forall v, In v vs -> forall d, quiet (view_out op d v)) ->
    emitted (View h (map Some vs)) = w /\ forall d, quiet (view_out op d (View h (map Some vs))).
  Proof.
    intros Hh He Eh Hl Hv. split; [|intros d; now apply quiet_view].
    cbn [emitted]. eapply emits_emitted; eauto.
  Qed.

  Lemma quiet_enum l z u k name : enum_name l z = Some name -> quiet (enum_out l z u k).
  Proof. intros H. unfold enum_out. rewrite H. apply quiet_txt. Qed.
  Lemma quiet_sort s : sort_writable X s -> quiet (sort_field_out op e s).
  Proof.
    intros (x & d & -> & Hx & Hd). unfold sort_field_out, tuple_out. cbn [sf_expr sf_kind opt_expr_out sort_kind_out].
    apply quiet_app; [apply quiet_txt|]. apply quiet_app; [|apply quiet_txt]. apply quiet_sep. constructor; [auto|]. constructor; [|constructor].
    assert (d = 1 \/ d = 2 \/ d = 3 \/ d = 4)%Z as [->|[->|[->| ->]]] by lia; apply quiet_txt.
  Qed.
  Lemma quiet_bound name m : bound_writable op X m -> Forall (fun x => quiet (snd x)) (fetch_arg op e name m).
  Proof.
    destruct m as [[x|z]|]; cbn [bound_writable fetch_arg]; [|contradiction|constructor]. intros H. constructor; [|constructor].
    cbn [snd fetch_mode_out]. destruct x; auto. destruct (is_number l); auto.
    destruct H as (_ & z & -> & _). cbn [expr_out]. unfold literal_out. cbn [l_type l_nullable litval_out].
    apply quiet_app; [apply quiet_txt|]. destruct (op_literal_types op); apply quiet_nil || apply quiet_txt.
  Qed.

  Lemma extension_node kind d widths vs cols : detail_writable reg e X T XtRelation d widths cols ->
    (forall v, In v vs -> forall d, quiet (view_out op d v)) ->
    emitted (View (extension_header reg op e kind (Some d) widths) (map Some vs)) = length cols /\
    forall k, quiet (view_out op k (View (extension_header reg op e kind (Some d) widths) (map Some vs))).
  Proof.
    intros (name & a & H1 & _ & _ & (A1 & A2 & _ & A4) & H5) Hv. unfold extension_header. rewrite H1. split.
    - cbn [emitted]. unfold hd_emitted. cbn [hd_emit hd_cols]. now rewrite map_length, H5.
    - intros k. apply quiet_view; [|exact Hv]. split; [apply quiet_txt|].
      split; [split; [now apply quiet_values|]|split; [now apply quiet_columns|split; [right|constructor]]].
      + apply Forall_map. eapply Forall_impl; [|exact A2]. intros p (_ & _ & Hp). now apply quiet_value.
      + apply quiet_plain; [exact I|]. now apply quiet_columns.
  Qed.

  Theorem relation_quiet r w : writable reg op e X T M r w -> rel_quiet r w.
  Proof.
    intros H. revert r w H.
    apply (writable_min U F reg op e X T M rel_quiet (Forall2 rel_quiet)).
    - (* named table *)
      intros c s names adv n w Hne Hn Hs Ha Hc. set (r := mk_read c s None (ReadNamed names) adv false).
      destruct (quiet_schema r n Hs) as [Q1 Q2]. unfold rel_quiet. cbn [view_of].
      assert (Hq : header_quiet (read_header reg op e r)).
      { unfold header_quiet, read_header, r. cbn [rd_type hd_name hd_args hd_cols hd_explicit hd_addenda args_quiet rd_common rd_adv].
        split; [apply quiet_txt|]. split; [repeat constructor; apply quiet_txt|]. split; [exact Q1|]. split; [|now apply quiet_adv].
        destruct Hc as [[-> _]|(m & -> & _)]; [right; now apply quiet_plain|left; split; [reflexivity|discriminate]]. }
      split; [|intros d; now apply (quiet_view _ [])].
      cbn [emitted]. unfold hd_emitted, read_header, r. cbn [rd_type hd_emit hd_cols rd_common].
      destruct Hc as [[-> ->]|(m & -> & _ & ->)]; cbn [get_emit direct emit rc_emit]; [exact Q2|reflexivity].
    - (* virtual table *)
      intros s f rows adv n Hs Hf Hr Ha. set (r := mk_read direct s f (ReadVirtual rows) adv false).
      destruct (quiet_schema r n Hs) as [Q1 Q2]. unfold rel_quiet. cbn [view_of].
      assert (Hq : header_quiet (read_header reg op e r)).
      { unfold header_quiet, read_header, r. cbn [rd_type hd_name hd_args hd_cols hd_explicit hd_addenda rd_common rd_adv rd_filter].
        split; [apply quiet_txt|]. split; [|split; [exact Q1|split; [right; now apply quiet_plain|now apply quiet_adv]]].
        assert (A : Forall quiet (map (fun row => tuple_out (map (expr_out op e) row)) rows)).
        { eapply quiet_map; [|exact Hr]. intros row Hrow. unfold tuple_out. apply quiet_app; [apply quiet_txt|].
          apply quiet_app; [|apply quiet_txt]. now apply quiet_sep, quiet_exprs. }
        assert (B : Forall (fun x => quiet (snd x)) match f with Some f => [(L "filter", expr_out op e f)] | None => [] end).
        { destruct f as [f|]; constructor; [|constructor]. cbn [snd]. now apply HX. }
        match goal with |- args_quiet (if ?b then RaRows ?p ?n else _) =>
          assert (args_quiet (RaInline p n)) end.
        { split; [|exact B]. destruct (map _ rows); [|exact A]. destruct f; [repeat constructor|exact A]. }
        destruct (negb _ && _); assumption. }
      split; [|intros d; now apply (quiet_view _ [])]. exact Q2.
    - (* extension table *)
      intros s d adv n Hs Hd Ha. set (r := mk_read direct s None (ReadExtension (Some d)) adv false).
      destruct (quiet_schema r n Hs) as [Q1 Q2]. unfold rel_quiet. cbn [view_of].
      assert (Hq : header_quiet (read_header reg op e r)).
      { unfold header_quiet, read_header, r. cbn [rd_type hd_name hd_args hd_cols hd_explicit hd_addenda rd_common rd_adv].
        split; [apply quiet_txt|]. split; [exact I|split; [exact Q1|split; [right; now apply quiet_plain|]]].
        constructor; [now apply quiet_addendum|now apply quiet_adv]. }
      split; [|intros k; now apply (quiet_view _ [])]. exact Q2.
    - (* filter *)
      intros c i x adv n m w _ [Ei Qi] Hx Ha He. unfold rel_quiet. cbn [view_of width]. rewrite Ei.
      apply (relation_node _ [_] w c n n m); auto; [|apply ref_columns_length|intros v [<-|[]]; exact Qi].
      split; [apply quiet_txt|]. split; [split; [constructor; [now apply HX|constructor]|constructor]|]. split; [apply quiet_refs|]. split; [right|now apply quiet_adv].
      eapply quiet_shown; [exact He|reflexivity|apply ref_columns_length|apply quiet_refs].
    - (* project *)
      intros c i xs adv n m w _ [Ei Qi] Hx _ Ha He _. unfold rel_quiet. cbn [view_of width]. rewrite Ei.
      assert (Q : Forall quiet (ref_columns n ++ map (expr_out op e) xs)).
      { apply Forall_app. split; [apply quiet_refs|now apply quiet_exprs]. }
      assert (Hl : length (ref_columns n ++ map (expr_out op e) xs) = n + length xs).
      { now rewrite app_length, ref_columns_length, map_length. }
      apply (relation_node _ [_] w c (n + length xs) (n + length xs) m); auto; [|intros v [<-|[]]; exact Qi].
      split; [apply quiet_txt|]. split; [exact I|]. split; [exact Q|]. split; [right|now apply quiet_adv].
      eapply quiet_shown; [exact He|reflexivity|exact Hl|exact Q].
    - (* aggregate *)
      intros c i gexprs groups ms adv n m w _ [Ei Qi] (G1 & G2 & G3 & G4 & G5) Hm Ha He _. unfold rel_quiet. cbn [view_of].
      assert (Hs : exists sets, grouping_values op e gexprs groups = (gexprs, sets) /\ Forall (Forall quiet) sets).
      { unfold grouping_values. destruct groups as [|g gs]; [congruence|]. pose proof (Forall_inv G2) as [G0 _]. rewrite G0.
        cbn [length Nat.eqb negb]. rewrite andb_false_r. eexists. split; [reflexivity|]. apply Forall_map.
        eapply Forall_impl; [|exact G2]. intros g' [_ Hi]. apply Forall_map. eapply Forall_impl; [|exact Hi]. intros j Hj. cbn beta in Hj.
        destruct (nth_error gexprs (N.to_nat j)) eqn:En; [|apply nth_error_None in En; lia].
        apply nth_error_In in En. rewrite Forall_forall in G4. auto. }
      destruct Hs as (sets & Es & Qs).
      assert (Qm : Forall quiet (measure_outs op e ms) /\ length (measure_outs op e ms) = length ms).
      { clear - Hm HM. induction Hm as [|x l (_ & a & Ea & Ma & _) _ [IH1 IH2]]; [split; constructor|]. cbn [measure_outs]. rewrite Ea.
        split; [constructor; auto|cbn [length]; now rewrite IH2]. }
      destruct Qm as [Qm Lm].
      assert (Q : Forall quiet (map (expr_out op e) gexprs ++ measure_outs op e ms)).
      { apply Forall_app. split; [now apply quiet_exprs|exact Qm]. }
      assert (Hl : length (map (expr_out op e) gexprs ++ measure_outs op e ms) = length gexprs + length ms).
      { now rewrite app_length, map_length, Lm. }
      unfold aggregate_header. rewrite Es.
      apply (relation_node _ [_] w c (length gexprs + length ms) (length gexprs + length ms) m); auto; [|intros v [<-|[]]; exact Qi].
      split; [apply quiet_txt|]. split; [|split; [exact Q|split; [right|now apply quiet_adv]]].
      + split; [|constructor]. unfold grouping_args.
        assert (A : Forall quiet (map (fun g => match g with [] => txt (L "_") | _ => tuple_out g end) sets)).
        { eapply quiet_map; [|exact Qs]. intros [|o g] Hg; [apply quiet_txt|]. unfold tuple_out.
          apply quiet_app; [apply quiet_txt|]. apply quiet_app; [|apply quiet_txt]. now apply quiet_sep. }
        destruct sets as [|[|o g] [|g' sets]]; try exact A. now apply Forall_inv in Qs.
      + eapply quiet_shown; [exact He|reflexivity|exact Hl|exact Q].
    - (* sort *)
      intros c i sorts adv n m w _ [Ei Qi] _ Hs Ha He. unfold rel_quiet. cbn [view_of width]. rewrite Ei.
      apply (relation_node _ [_] w c n n m); auto; [|apply ref_columns_length|intros v [<-|[]]; exact Qi].
      split; [apply quiet_txt|]. split; [split; [|constructor]|].
      + eapply quiet_map; [|exact Hs]. exact quiet_sort.
      + split; [apply quiet_refs|]. split; [right|now apply quiet_adv].
        eapply quiet_shown; [exact He|reflexivity|apply ref_columns_length|apply quiet_refs].
    - (* fetch *)
      intros c i count offset adv n m w _ [Ei Qi] Hc Ho Ha He. unfold rel_quiet. cbn [view_of width]. rewrite Ei.
      apply (relation_node _ [_] w c n n m); auto; [|apply ref_columns_length|intros v [<-|[]]; exact Qi].
      split; [apply quiet_txt|]. split; [split; [constructor|]|].
      + apply Forall_app. split; now apply quiet_bound.
      + split; [apply quiet_refs|]. split; [right|now apply quiet_adv].
        eapply quiet_shown; [exact He|reflexivity|apply ref_columns_length|apply quiet_refs].
    - (* join *)
      intros c l r x post t adv nl nr name shown m w _ [El Ql] _ [Er Qr] Hx Hp Ha Ht Hj He. unfold rel_quiet. cbn [view_of width].
      rewrite El, Er. destruct (join_type_text t name Ht) as (_ & _ & Hw & _).
      assert (shown = join_width t nl nr) as -> by (eapply join_output_unique; eauto).
      apply (relation_node _ [_; _] w c (join_width t nl nr) (nl + nr) m); auto; [|apply ref_columns_length|intros v [<-|[<-|[]]]; assumption].
      split; [apply quiet_txt|]. split; [split|].
      + constructor; [now apply (quiet_enum _ _ _ _ name)|]. constructor; [now apply HX|constructor].
      + destruct post; constructor; [|constructor]. now apply HX.
      + split; [apply quiet_refs|]. split; [right|now apply quiet_adv].
        eapply quiet_shown; [exact He|reflexivity|apply ref_columns_length|apply quiet_refs].
    - (* set *)
      intros c i1 i2 l o adv n name m w _ H1 _ H2 _ Hrest Ha Ho He.
      assert (HF : forall i, In i (i1 :: i2 :: l) -> rel_quiet i n) by (intros i [<-|[<-|Hi]]; auto).
      clear H1 H2 Hrest. unfold rel_quiet. cbn [view_of].
      assert (Hw : set_header reg op e c (map emitted (map (view_of reg op e) (i1 :: i2 :: l))) o adv
        = mk_header (txt (L "Set")) (Some (RaInline [enum_out set_ops o "SetOp" "SetRel"] []))
            (ref_columns n) (get_emit c) false (adv_lines reg op e adv)).
      { unfold set_header. rewrite (same_widths opts_default eq_refl n); [reflexivity|discriminate|]. intros k Hk.
        rewrite map_map in Hk. apply in_map_iff in Hk as (i & <- & Hi). now apply HF. }
      rewrite Hw. apply (relation_node _ (map (view_of reg op e) (i1 :: i2 :: l)) w c n n m); auto.
      + split; [apply quiet_txt|]. split; [split; [constructor; [now apply (quiet_enum _ _ _ _ name)|constructor]|constructor]|].
        split; [apply quiet_refs|]. split; [right|now apply quiet_adv].
        eapply quiet_shown; [exact He|reflexivity|apply ref_columns_length|apply quiet_refs].
      + apply ref_columns_length.
      + intros v Hv. apply in_map_iff in Hv as (i & <- & Hi). now apply HF.
    - (* cross *)
      intros c l r adv nl nr m w _ [El Ql] _ [Er Qr] Ha He. unfold rel_quiet. cbn [view_of width]. rewrite El, Er.
      apply (relation_node _ [_; _] w c (nl + nr) (nl + nr) m); auto; [|apply ref_columns_length|intros v [<-|[<-|[]]]; assumption].
      split; [apply quiet_txt|]. split; [exact I|]. split; [apply quiet_refs|]. split; [right|now apply quiet_adv].
      eapply quiet_shown; [exact He|reflexivity|apply ref_columns_length|apply quiet_refs].
    - (* leaf *)
      intros d cols Hd. unfold rel_quiet. cbn [view_of]. now apply (extension_node _ d [] [] cols).
    - intros d i n cols _ [Ei Qi] Hd. unfold rel_quiet. cbn [view_of]. rewrite Ei. apply (extension_node _ d [n] [_] cols Hd).
      intros v [<-|[]]. exact Qi.
    - intros d l ns cols _ Hl Hd. unfold rel_quiet. cbn [view_of].
      assert (E : map emitted (map (view_of reg op e) l) = ns).
      { clear - Hl. induction Hl as [|i n l ns [Ei _] _ IH]; [reflexivity|]. cbn [map]. now rewrite Ei, IH. }
      rewrite E. apply (extension_node _ d ns _ cols Hd). intros v Hv. apply in_map_iff in Hv as (i & <- & Hi).
      clear - Hl Hi. induction Hl as [|j n l ns [_ Q] _ IH]; [contradiction|]. destruct Hi as [<-|Hi]; auto.
    - constructor.
    - intros r n l ns _ Hr _ Hl. now constructor.
  Qed.

  Theorem plan_rel_quiet p : plan_rel_writable reg op e X T M p -> quiet (plan_rel_out reg op e p).
  Proof.
    destruct p as [r|names [r|]|]; cbn [plan_rel_writable plan_rel_out]; try contradiction.
    - intros (w & H). apply relation_quiet in H as [_ H]. apply H.
    - intros (_ & w & H). apply relation_quiet in H as [_ H]. unfold rel_out. auto with quiet.
  Qed.
End Quiet.
