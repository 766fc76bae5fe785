(** The heads of relations: their lines and addenda. *)
From Coq Require Import String List NArith ZArith Bool Lia.
From Verif Require Import Base Names SimpleExt SimpleExtFacts Out Types Literals Exprs ExprEq ExtArgs Registry SpecRegistry Rels Structural Plan
  OutClosed Props_Aggregate SpecAggregate SpecMeaning MeaningFacts SpecText SpecNotation NotationBase NotationTypes NotationLits NotationExprs SpecLayout LayoutRels.
Import ListNotations.
Local Open Scope string_scope.
Local Open Scope list_scope.
Local Open Scope nat_scope.

Lemma columns_refs n : Forall2 means (ref_columns n) (references n).
Proof.
  apply Forall2_same. intros i s. rewrite clean_txt. unfold position. split.
  - intros ->. exists (wrap_i32 (Z.of_nat i)). split; [now apply wrap_bits|]. apply reference_out. now apply clean_txt.
  - intros (z & H & K). apply wrap_bits in H as <-. apply reference_out in K. now apply clean_txt in K.
Qed.
Lemma refs_length n : length (references n) = n.
Proof. unfold references. now rewrite map_length, seq_length. Qed.
Lemma means_tuple os cs : Forall2 means os cs -> means (tuple_out os) (tuple_text cs).
Proof.
  intros H s. unfold tuple_out, tuple_text. rewrite clean_before. setoid_rewrite clean_after. setoid_rewrite clean_sep. setoid_rewrite (each_iff _ _ _ H). split.
  - intros (? & (? & (ss & K & ->) & ->) & ->). exists ss. auto.
  - intros (ss & K & ->). eexists. split; [eexists; split; [exists ss; split; [exact K|reflexivity]|reflexivity]|reflexivity].
Qed.
Lemma enum_iff l values z a b : (forall p, In p (map (fun p => (fst p, L (snd p))) l) <-> In p (map (fun p => (snd p, camel (fst p))) values)) -> NoDup (map fst l) ->
  means (enum_out l z a b) (enum_text values z).
Proof.
  intros E D s. unfold enum_out, enum_text.
  assert (G : forall t, (exists n, enum_name l z = Some n /\ t = L n) <-> exists n, In (n, z) values /\ t = camel n).
  { intros t. assert (I : (exists n, In (n, z) values /\ t = camel n) <-> In (z, t) (map (fun p => (snd p, camel (fst p))) values)).
    { rewrite in_map_iff. split; [intros (n & H & ->); now exists (n, z)|]. intros ([n z'] & [= -> <-] & H). eauto. }
    rewrite I, <- E. clear I E. induction l as [|[k n] l IH]; cbn [enum_name map In fst snd].
    - split; [intros (n & H & _); discriminate|tauto].
    - inversion D as [|? ? D1 D2]; subst. destruct (Z.eqb_spec k z) as [->|K].
      + split; [intros (m & [= <-] & ->); auto|]. intros [[= <-]|H]; eauto. exfalso. apply D1. apply in_map_iff in H as ([k' n'] & [= -> _] & H). apply in_map_iff. now exists (z, n').
      + rewrite IH by auto. split; auto. intros [[= ? _]|H]; [congruence|auto]. }
  destruct (enum_name l z) as [n|] eqn:N.
  - rewrite clean_txt. split.
    + intros ->. destruct (proj1 (G (L n))) as (m & Hm & Em); [eauto|]. exists m. split; [exact Hm|]. now rewrite Em.
    + intros (m & Hm & ->). destruct (proj2 (G (camel m))) as (n' & [= <-] & Em); [eauto|]. now rewrite Em.
  - assert (X : (exists n, In (n, z) values /\ s = L "&" ++ camel n) <-> False).
    { split; [|tauto]. intros (m & Hm & _). destruct (proj2 (G (camel m))) as (n' & ? & _); [eauto|]. discriminate. }
    rewrite X. destruct (z =? 0)%Z; apply clean_fail.
Qed.

Lemma nth_error_same {A} (l : list A) : forall m, (forall i, nth_error l i = nth_error m i) -> l = m.
Proof.
  induction l as [|x l IH]; intros [|y m] H; auto; try (specialize (H 0); discriminate).
  pose proof (H 0) as H0. cbn in H0. injection H0 as ->. f_equal. apply IH. intros i. exact (H (S i)).
Qed.

Section Heads.
  Context `{U : Unicode} `{F : Floats}.
  Context (reg : registry) (op : options) (e : exts) (W : wf_exts e).

  Lemma means_expr x : means (expr_out op e x) (expression op e x).
  Proof. intros s. apply expr_text_iff; auto. Qed.
  Lemma means_opt k m x : means (opt_expr_out op e k m x) (optional op e x).
  Proof. destruct x; [apply means_expr|apply means_fail]. Qed.
  Lemma means_names names ns : Forall2 name_text names ns <-> ns = map show_name names.
  Proof.
    revert ns. induction names as [|n names IH]; intros ns; cbn [map].
    - split; [now inversion 1|]. intros ->. constructor.
    - split; [inversion 1 as [|? x ? xs Hx Hxs]; subst; apply name_text_iff in Hx; apply IH in Hxs; congruence|].
      intros ->. constructor; [now apply name_text_iff|now apply IH].
  Qed.
  Lemma means_table names : means (txt (join (L ".") (map show_name names))) (table_text names).
  Proof.
    intros s. rewrite clean_txt. unfold table_text. setoid_rewrite means_names. split; [intros ->; eauto|]. intros (ns & -> & ->). reflexivity.
  Qed.

  (** *** Extensions *)

  Lemma means_xvalue v : means (xvalue_out op e v) (xvalue_text op e v).
  Proof.
    revert v. apply (xvalue_ind2 (fun v => means (xvalue_out op e v) (xvalue_text op e v))); cbn [xvalue_out].
    - intros x s. rewrite clean_txt, <- string_text_iff. split; [now constructor|]. now inversion 1.
    - intros z s. rewrite clean_txt, <- numeral_iff. split; [now constructor|]. now inversion 1.
    - intros f s. rewrite clean_txt. split; [intros ->; constructor|]. now inversion 1.
    - intros [|] s; rewrite clean_txt; cbn [show_bool]; (split; [intros ->; constructor|]; now inversion 1).
    - intros s. rewrite clean_txt. split; [intros ->; constructor|]. now inversion 1.
    - intros x s. rewrite clean_fail. split; [tauto|]. now inversion 1.
    - intros x s. rewrite (expr_text_iff op e W x s). split; [now constructor|]. now inversion 1.
    - intros x s. rewrite clean_txt. split; [intros ->; constructor|]. now inversion 1.
    - intros l H s. rewrite clean_before.
      assert (M : forall ss, Forall2 clean (map (xvalue_out op e) l) ss <-> Forall2 (xvalue_text op e) l ss) by (intros ss; now apply clean_map).
      assert (G : (exists y, clean (osep (L ", ") (map (xvalue_out op e) l) +++ txt (match l with [_] => L "," | _ => [] end) +++ txt (L ")")) y /\ s = L "(" ++ y)
        <-> exists ss, Forall2 (xvalue_text op e) l ss /\ s = L "(" ++ listed ss ++ match l with [_] => L ",)" | _ => L ")" end).
      { split.
        - intros (y & K & ->). apply clean_app in K as (a & b & K & K' & ->). apply clean_sep in K as (ss & K & ->). apply clean_before in K' as (c & K' & ->). apply clean_txt in K' as ->.
          exists ss. split; [now apply M|]. now destruct l as [|? [|]].
        - intros (ss & K & ->). eexists. split; [|reflexivity]. apply clean_app. exists (listed ss). eexists. split; [apply clean_sep; exists ss; split; [now apply M|reflexivity]|].
          split; [apply clean_before; eexists; split; [now apply clean_txt|reflexivity]|]. now destruct l as [|? [|]]. }
      rewrite G. clear G M H. split.
      + intros (ss & K & ->). destruct l as [|x [|y l]].
        * apply xv_tuple; [discriminate|exact K].
        * inversion K as [|? t ? ? Ht Hr]; subst. inversion Hr; subst. now apply xv_one.
        * apply xv_tuple; [discriminate|exact K].
      + intros K. inversion K as [| | | | | | | |v t Ht|vs ss Hl Hs]; subst.
        * exists [t]. split; [repeat constructor; exact Ht|reflexivity].
        * exists ss. split; [exact Hs|]. destruct l as [|x [|y l]]; try reflexivity. now destruct Hl.
  Qed.
  Lemma means_xcolumn c : means (xcolumn_out op e c) (xcolumn_text op e c).
  Proof.
    destruct c as [n t|x]; cbn [xcolumn_out xcolumn_text]; [|apply means_expr]. intros s. rewrite clean_before. setoid_rewrite (type_text_iff op e W). split.
    - intros (y & H & ->). exists (show_name n), y. split; [now apply name_text_iff|]. split; [exact H|]. now rewrite <- app_assoc.
    - intros (x & y & H1 & H2 & ->). apply name_text_iff in H1 as ->. exists y. split; [exact H2|]. now rewrite <- app_assoc.
  Qed.
  Lemma xarguments_iff a : means_args (map (xvalue_out op e) (xa_positional a) ++ map named_out (map (fun p => (fst p, xvalue_out op e (snd p))) (xa_named a))) (xarguments op e a).
  Proof.
    unfold xarguments. apply Forall2_app; [apply bare_args, Forall2_same; apply means_xvalue|]. rewrite map_map. apply Forall2_same. intros [n v]. apply named_iff, means_xvalue.
  Qed.
  Lemma xarglist_eq a : xarglist_out op e a = arguments_out (map (xvalue_out op e) (xa_positional a)) (map (fun p => (fst p, xvalue_out op e (snd p))) (xa_named a)).
  Proof. unfold xarglist_out, arguments_out. rewrite map_map. unfold named_out, xnamed_out. cbn [fst snd]. destruct (xa_positional a), (xa_named a); reflexivity. Qed.
  Lemma decoded_iff k d ws name a : decode_with_type reg k d ws = Ok (name, a) <-> decoded reg k d ws name a.
  Proof.
    unfold decode_with_type, decoded. destruct (hget (k, any_url d) (rg_urls reg)) as [n|]; [|split; [discriminate|intros [H _]; discriminate]].
    destruct (hget (k, n) (rg_handlers reg)) as [h|] eqn:E.
    - change (arguments_of) with textify_detail. destruct (textify_detail h d ws) as [x|x|x] eqn:T; cbn [rbind].
      + split; [intros [= <- <-]; split; auto; now exists h|]. intros ([= <-] & h' & E' & T'). congruence.
      + split; [discriminate|]. intros ([= <-] & h' & E' & T'). congruence.
      + split; [discriminate|]. intros ([= <-] & h' & E' & T'). congruence.
    - split; [discriminate|]. intros ([= <-] & h' & E' & T'). congruence.
  Qed.
  Lemma means_addendum prefix k d : means (addendum_out op e prefix (decode_with_type reg k d [])) (addendum_text reg op e (prefix, k, d)).
  Proof.
    intros s. unfold addendum_out, addendum_text. rewrite clean_before. split.
    - intros (y & H & ->). destruct (decode_with_type reg k d []) as [[name a]|x|x] eqn:E.
      + apply decoded_iff in E. destruct (xa_columns a) as [|c cs] eqn:C.
        * apply clean_before in H as (z & H & ->). apply clean_after in H as (x & H & ->). unfold xargs_out in H. rewrite C in H.
          apply clean_app in H as (x1 & x2 & H & H' & ->). apply clean_nil in H' as ->. rewrite app_nil_r. rewrite xarglist_eq in H. apply (arguments_iff _ _ _ (xarguments_iff a)) in H.
          exists name, a, x1. split; [exact E|]. split; [exact C|]. split; [exact H|]. now rewrite <- !app_assoc.
        * apply clean_before in H as (z & H & ->). apply clean_after in H as (x & H & ->). now apply clean_fail in H.
      + apply clean_before in H as (z & H & ->). apply clean_after in H as (t & H & ->). now apply clean_fail in H.
      + now apply clean_panic in H.
    - intros (name & a & x & E & C & H & ->). apply decoded_iff in E. rewrite E, C. exists (L ":" ++ name ++ L "[" ++ x ++ L "]"). split; [|now rewrite <- !app_assoc].
      apply clean_before. exists (x ++ L "]"). split; [|now rewrite <- !app_assoc]. apply clean_after. exists x. split; [|reflexivity]. unfold xargs_out. rewrite C.
      apply clean_app. exists x, []. split; [rewrite xarglist_eq; now apply (arguments_iff _ _ _ (xarguments_iff a))|]. split; [now apply clean_nil|]. now rewrite app_nil_r.
  Qed.
  Definition means_addenda (os : list out) (l : list (string * xtype * any)) : Prop := Forall2 (fun o a => means o (addendum_text reg op e a)) os l.
  Lemma adv_iff adv : means_addenda (adv_lines reg op e adv) (addenda adv).
  Proof.
    destruct adv as [[enh opts]|]; [|constructor]. unfold adv_lines, addenda, means_addenda. cbn [ae_enhancement ae_optimizations]. apply Forall2_app.
    - destruct enh; cbn [opt_list map]; [apply Forall2_cons; [apply means_addendum|]|]; constructor.
    - apply Forall2_same. intros d. apply means_addendum.
  Qed.
  Definition below (ls : list (list N)) : list N := concat (map (fun l => nl ++ l) ls).
  Lemma below_app a b : below (a ++ b) = below a ++ below b.
  Proof. unfold below. now rewrite map_app, concat_app. Qed.
  Lemma below_join ls : ls <> [] -> below ls = nl ++ join nl ls.
  Proof.
    intros H. induction ls as [|x ls IH]; [congruence|]. destruct ls as [|y ls]; [unfold below; cbn [map concat join]; now rewrite app_nil_r|].
    change (below (x :: y :: ls)) with ((nl ++ x) ++ below (y :: ls)). rewrite IH by discriminate. change (join nl (x :: y :: ls)) with (x ++ nl ++ join nl (y :: ls)). now rewrite <- app_assoc.
  Qed.
  Lemma join_below h ls : h <> [] -> join nl (h ++ ls) = join nl h ++ below ls.
  Proof.
    intros H. destruct ls as [|x ls]; [unfold below; cbn [map concat]; now rewrite !app_nil_r|]. rewrite join_app by (auto; discriminate). now rewrite below_join.
  Qed.
  Lemma addenda_iff d os l s : means_addenda os l ->
    clean (fold_right oapp onil (map (fun a => txt ([c_nl] ++ indent_text op (S d)) +++ a) os)) s <-> exists ls, addenda_lines reg op e d l ls /\ s = below ls.
  Proof.
    intros H. unfold addenda_lines. revert s. induction H as [|o a os l Ho Hos IH]; intros s; cbn [map fold_right].
    - rewrite clean_nil. split; [intros ->; exists []; split; [exists []; split; constructor|reflexivity]|]. intros (ls & (ss & H & ->) & ->). inversion H; subst. reflexivity.
    - rewrite clean_app. setoid_rewrite clean_before. setoid_rewrite IH. setoid_rewrite (Ho _). rewrite indentation_eq. split.
      + intros (? & ? & (x & Hx & ->) & (ls & (ss & Hs & ->) & ->) & ->). exists (map (fun s => indentation op (S d) ++ s) (x :: ss)). split; [exists (x :: ss); split; [now constructor|reflexivity]|].
        unfold below. cbn [map concat]. unfold nl. change [c_nl] with [10%N]. now rewrite <- !app_assoc.
      + intros (ls & (ss & Hs & ->) & ->). inversion Hs as [|? x ? ss' Hx Hss]; subst. do 2 eexists. split; [exists x; split; [exact Hx|reflexivity]|].
        split; [eexists; split; [exists ss'; split; [exact Hss|reflexivity]|reflexivity]|]. unfold below. cbn [map concat]. unfold nl. change [c_nl] with [10%N]. now rewrite <- !app_assoc.
  Qed.

  (** *** Fields and groupings *)

  Lemma zip_no_names types : zip_fields op e [] types = map (fun t => field_out op e None (Some t)) types.
  Proof. destruct types as [|t types]; [reflexivity|]. reflexivity. Qed.
  Lemma zip_length names : forall types, length (zip_fields op e names types) = Nat.max (length names) (length types).
  Proof.
    induction names as [|n names IH]; intros types; [rewrite zip_no_names; now rewrite map_length|].
    destruct types as [|t types]; cbn [zip_fields length]; rewrite IH; cbn [length]; lia.
  Qed.
  Lemma zip_nth names : forall types i, i < Nat.max (length names) (length types) ->
    nth_error (zip_fields op e names types) i = Some (field_out op e (nth_error names i) (nth_error types i)).
  Proof.
    induction names as [|n names IH]; intros types i Hi.
    - rewrite zip_no_names. cbn [length] in Hi. rewrite Nat.max_0_l in Hi. destruct (nth_error types i) as [t|] eqn:E; [|apply nth_error_None in E; lia].
      rewrite (map_nth_error _ _ _ E). now destruct i.
    - destruct types as [|t types]; cbn [zip_fields]; destruct i as [|i]; try reflexivity; cbn [nth_error]; cbn [length] in Hi.
      + rewrite IH by (cbn [length]; lia). now destruct i.
      + apply IH. lia.
  Qed.
  Lemma means_field n t : means (field_out op e n t) (fun s => exists n' t' x y, n = Some n' /\ t = Some t' /\ name_text n' x /\ type_text op e t' y /\ s = x ++ L ":" ++ y).
  Proof.
    intros s. unfold field_out. split.
    - intros H. apply clean_app in H as (a & b & H & H' & ->). apply clean_before in H' as (y & H' & ->). destruct n as [n|]; [|now apply clean_fail in H]. apply clean_txt in H as ->.
      destruct t as [t|]; [|now apply clean_fail in H']. apply (type_text_iff op e W) in H'. exists n, t, (show_name n), y. repeat (split; auto). now apply name_text_iff.
    - intros (n' & t' & x & y & -> & -> & H & H' & ->). apply name_text_iff in H as ->. apply clean_app. do 2 eexists. split; [now apply clean_txt|]. split; [|reflexivity].
      apply clean_before. exists y. split; [now apply (type_text_iff op e W)|reflexivity].
  Qed.
  Lemma fields_iff names types : Forall2 means (zip_fields op e names types) (fields op e names types).
  Proof.
    unfold fields. rewrite <- (zip_length names types).
    assert (E : zip_fields op e names types = map (fun i => field_out op e (nth_error names i) (nth_error types i)) (seq 0 (length (zip_fields op e names types)))).
    { apply nth_error_same. intros i. destruct (Nat.lt_ge_cases i (length (zip_fields op e names types))) as [H|H].
      - rewrite zip_nth by now rewrite <- zip_length. symmetry. apply (map_nth_error (fun i => field_out op e (nth_error names i) (nth_error types i))). rewrite (nth_error_nth' _ 0) by now rewrite seq_length. now rewrite seq_nth.
      - rewrite (proj2 (nth_error_None _ _)) by auto. symmetry. apply nth_error_None. now rewrite map_length, seq_length. }
    rewrite E at 1. apply Forall2_same. intros i. apply means_field.
  Qed.
  Lemma read_columns_iff r : Forall2 means (read_columns op e r) (read_fields op e r).
  Proof. unfold read_columns, read_fields. destruct (rd_schema r); [apply fields_iff|apply Forall2_cons; [apply means_fail|constructor]]. Qed.

  Lemma dedup_snoc l x : forall seen, dedup seen (l ++ [x]) = dedup seen l ++ if existsb (pexpr_eqb x) (seen ++ dedup seen l) then [] else [x].
  Proof.
    induction l as [|y l IH]; intros seen; cbn [app dedup].
    - rewrite app_nil_r. now destruct (existsb (pexpr_eqb x) seen).
    - destruct (existsb (pexpr_eqb y) seen) eqn:E; [apply IH|]. rewrite IH. cbn [app]. now rewrite <- app_assoc.
  Qed.
  Lemma existsb_In x l : existsb (pexpr_eqb x) l = true <-> In x l.
  Proof. rewrite existsb_exists. split; [intros (y & H & K); now apply pexpr_eqb_eq in K as ->|]. intros H. exists x. split; [exact H|apply pexpr_eqb_refl]. Qed.
  Lemma occurring_iff l xs : occurring l xs <-> xs = dedup [] l.
  Proof.
    split.
    - induction 1 as [|l m x H IH K|l m x H IH K]; [reflexivity| |]; rewrite dedup_snoc, app_nil_l, <- IH.
      + destruct (existsb (pexpr_eqb x) m) eqn:E; [|reflexivity]. now apply existsb_In in E.
      + apply existsb_In in K. rewrite K. now rewrite app_nil_r.
    - intros ->. induction l as [|x l IH] using rev_ind; [constructor|]. rewrite dedup_snoc, app_nil_l. destruct (existsb (pexpr_eqb x) (dedup [] l)) eqn:E.
      + rewrite app_nil_r. apply oc_again; auto. now apply existsb_In.
      + apply oc_new; auto. intros K. apply existsb_In in K. congruence.
  Qed.
  Lemma groupings_iff gexprs groups : exists sets, (forall xs sets', grouping_sets op e gexprs groups xs sets' <-> xs = fst (grouping_values op e gexprs groups) /\ sets' = sets)
    /\ Forall2 (Forall2 means) (snd (grouping_values op e gexprs groups)) sets.
  Proof.
    unfold grouping_values.
    assert (P : forall g, Forall2 means (map (fun i => match nth_error gexprs (N.to_nat i) with Some x => expr_out op e x | None => missing FInvalid "AggregateRel" end) (gr_refs g))
                (map (fun i s => exists x, nth_error gexprs (N.to_nat i) = Some x /\ expr_text op e x s) (gr_refs g))).
    { intros g. apply Forall2_same. intros i s. destruct (nth_error gexprs (N.to_nat i)) as [x|].
      - rewrite (means_expr x s). split; [eauto|]. intros (y & [= <-] & H). exact H.
      - unfold missing. rewrite (means_fail _ s). split; [intros []|]. intros (y & H & _). discriminate. }
    destruct groups as [|g groups].
    - rewrite andb_false_r. exists [[]]. split; [|repeat constructor]. intros xs sets'. cbn [fst]. split; [inversion 1; auto|]. intros [-> ->]. constructor.
    - destruct (Nat.eqb (length gexprs) 0 && negb (Nat.eqb (length (gr_exprs g)) 0)) eqn:E; cbn [fst snd].
      + apply andb_true_iff in E as [E1 E2]. apply Nat.eqb_eq, length_zero_iff_nil in E1 as ->. apply negb_true_iff, Nat.eqb_neq in E2.
        exists (map (fun g => map (expression op e) (gr_exprs g)) (g :: groups)). split.
        * intros xs sets'. split.
          -- inversion 1 as [? ? ? H1 H2| |? ? ? H1]; subst; [split; [now apply occurring_iff|reflexivity]|]. exfalso. destruct H1 as [H1|H1]; [congruence|]. now rewrite H1 in E2.
          -- intros [-> ->]. constructor; [intros K; now rewrite K in E2|now apply occurring_iff].
        * apply Forall2_same. intros g'. apply Forall2_same. apply means_expr.
      + exists (map (fun g => map (fun i s => exists x, nth_error gexprs (N.to_nat i) = Some x /\ expr_text op e x s) (gr_refs g)) (g :: groups)). split.
        * intros xs sets'. apply andb_false_iff in E. split.
          -- inversion 1 as [? ? ? H1 H2| |? ? ? H1]; subst; [|auto]. exfalso. destruct E as [E|E]; [discriminate|]. apply negb_false_iff, Nat.eqb_eq, length_zero_iff_nil in E. contradiction.
          -- intros [-> ->]. constructor. destruct E as [E|E]; [left; intros ->; discriminate|right]. now apply negb_false_iff, Nat.eqb_eq, length_zero_iff_nil in E.
        * apply Forall2_same. apply P.
  Qed.
  Lemma set_args_iff os sets : Forall2 (Forall2 means) os sets -> means_args (grouping_args os) (set_arguments sets).
  Proof.
    intros H. unfold set_arguments. apply bare_args.
    assert (G : Forall2 means (map (fun g => match g with [] => txt (L "_") | _ => tuple_out g end) os) (map set_text sets)).
    { apply (Forall2_maps _ _ _ (Forall2 means)); auto. intros a b K. destruct K; [apply means_txt|]. apply means_tuple. now constructor. }
    unfold grouping_args. destruct H as [|a b os sets Hab H]; [constructor|]. destruct H as [|a' b' os sets Hab' H].
    - destruct Hab; [exact G|now constructor].
    - destruct Hab; exact G.
  Qed.
  Lemma measures_iff ms : Forall2 means (measure_outs op e ms) (measures op e ms).
  Proof.
    unfold measures. induction ms as [|m ms IH]; cbn [measure_outs map concat]; [constructor|]. destruct (ms_fn m) as [a|]; cbn [opt_list map app]; [|exact IH].
    constructor; [|exact IH]. intros s. now apply aggfn_iff.
  Qed.
End Heads.
