(** Deprecated groupings, and the names of enumerated values. *)
From Coq Require Import String List NArith ZArith Bool Lia.
From Verif Require Import Base BaseFacts Peg PegFacts Names SimpleExt Out Anchors Types TypesFacts
  Literals Exprs ExprsFacts ExprEq ExtArgs Registry Rels RelGrammar RelRead Tree Structural
  SpecNames SpecLiterals SpecPlan SpecRels RelReadFacts RelTextFacts Plan SpecAggregate Props_Ext Props_Exprs Props_Registry Props_Plan.
Import ListNotations.
Local Open Scope string_scope.
Local Open Scope list_scope.
Local Open Scope nat_scope.

(** ** C45: groupings *)

Lemma dedup_firsts l : forall seen,
  fold_left (fun seen x => if existsb (pexpr_eqb x) seen then seen else seen ++ [x]) l seen = seen ++ dedup seen l.
Proof.
  induction l as [|x l IH]; intros seen; cbn [fold_left dedup]; [now rewrite app_nil_r|].
  rewrite IH. destruct (existsb (pexpr_eqb x) seen); [reflexivity|]. now rewrite <- app_assoc.
Qed.

Section Groupings.
  Context `{U : Unicode} `{F : Floats}.
  Variable reg : registry.
  Variable op : options.
  Variable e : exts.

  Lemma groupings_alike sets gexprs groups gexprs' groups' :
    hd [] sets <> [] -> deprecated_form sets gexprs groups -> current_form sets gexprs' groups' ->
    grouping_values op e gexprs groups = grouping_values op e gexprs' groups'.
  Proof.
    intros Hn [-> Hs] [Hg Hr]. unfold grouping_values. cbn [length Nat.eqb andb].
    destruct groups as [|g groups]; [subst sets; now destruct Hn|].
    assert (Hg0 : gr_exprs g <> []) by (subst sets; exact Hn).
    replace (Nat.eqb (length (gr_exprs g)) 0) with false by (destruct (gr_exprs g); [congruence|reflexivity]). cbn [negb].
    assert (Hne : gexprs' <> []).
    { subst sets. inversion Hr as [|? g' ? ? H1 _]; subst. destruct (gr_exprs g) as [|x xs]; [congruence|].
      inversion H1 as [|? i ? ? H2 _]. intros E. rewrite E in H2. destruct (N.to_nat i); discriminate. }
    replace (Nat.eqb (length gexprs') 0) with false by (destruct gexprs'; [congruence|reflexivity]). cbn [andb].
    f_equal.
    - rewrite Hg, Hs. unfold firsts. now rewrite dedup_firsts.
    - rewrite <- map_map, Hs. clear Hs Hg Hg0 Hne.
      destruct groups' as [|g' groups']; [inversion Hr; subst; now destruct Hn|]. clear Hn.
      induction Hr as [|s h sets hs H1 _ IH]; [reflexivity|]. cbn [map]. f_equal; [|exact IH].
      induction H1 as [|x i xs is Hx _ IHx]; [reflexivity|]. cbn [map]. now rewrite Hx, IHx.
  Qed.

  Lemma modernized_view r r' : modernized r r' -> view_of reg op e r = view_of reg op e r'.
  Proof.
    induction 1 as [| sets c i gexprs groups gexprs' groups' ms adv Hn Hd Hc | r s t _ IH1 _ IH2 | | | | | | | | | | | |];
      cbn [view_of]; rewrite ?IHmodernized; try reflexivity.
    - unfold aggregate_header. now rewrite (groupings_alike _ _ _ _ _ Hn Hd Hc).
    - now rewrite IH1.
    - rewrite !map_app. cbn [map]. now rewrite IHmodernized.
    - rewrite !map_app. cbn [map]. now rewrite IHmodernized.
  Qed.
End Groupings.

(** A plan is written the same whichever form its groupings have. *)
Theorem C45_deprecated_groupings : forall (U : Unicode) (F : Floats) reg op v u d rels rels',
  Forall2 plan_rel_modernized rels rels' ->
  format reg op (mk_plan _ v u d rels) = format reg op (mk_plan _ v u d rels').
Proof.
  intros U F reg op v u d rels rels' H. unfold format. cbn [pl_urns pl_decls pl_version pl_rels].
  destruct (from_extensions u d) as [e errs]. do 5 f_equal. unfold relations_out. f_equal. f_equal.
  induction H as [|x y l l' Hxy _ IH]; [reflexivity|]. cbn [map]. rewrite IH. f_equal.
  destruct Hxy as [r r' Hr|ns r r' Hr|]; [| |reflexivity]; cbn [plan_rel_out]; unfold rel_out;
    now rewrite (modernized_view reg op e r r' Hr).
Qed.

(** Not so when the first set is empty: the expressions of the others are then
    passed over in silence, and each set is written as empty. *)
Theorem C45_first_set_empty_refuted : forall (U : Unicode) (F : Floats) reg op e c i sets groups ms adv,
  deprecated_form ([] :: sets) [] groups -> Forall (fun g => gr_refs g = []) groups ->
  view_of reg op e (RAggregate c i [] groups ms adv)
  = view_of reg op e (RAggregate c i [] (map (fun _ => mk_grouping [] []) groups) ms adv).
Proof.
  intros U F reg op e c i sets groups ms adv [_ Hs] Hr. cbn [view_of]. f_equal. unfold aggregate_header. f_equal.
  enough (E : grouping_values op e [] groups = grouping_values op e [] (map (fun _ => mk_grouping [] []) groups)) by now rewrite E.
  unfold grouping_values. destruct groups as [|g groups]; [reflexivity|]. cbn [map] in *. injection Hs as Hg _. rewrite Hg.
  cbn [length Nat.eqb negb andb gr_exprs]. f_equal. rewrite map_map. inversion Hr; subst. f_equal; [now rewrite H1|].
  clear - H2. induction H2 as [|x l Hx _ IH]; [reflexivity|]. cbn [map]. rewrite IH. now rewrite Hx.
Qed.

(** ** C46: enumerated values *)

Lemma numbers_named (names : list (Z * string)) (proto : list (string * Z)) :
  forallb (fun p => existsb (fun q => (fst p =? snd q)%Z && streqb (L (snd p)) (camel (fst q))) proto) names = true ->
  (forall z n, enum_name names z = Some n -> exists s, In (s, z) proto /\ L n = camel s) /\
  (forall z t, enum_number names t = Some z -> exists s, In (s, z) proto /\ t = camel s).
Proof.
  induction names as [|[k n] names IH]; cbn [forallb enum_name enum_number fst snd]; intros H; [split; discriminate|].
  apply andb_true_iff in H as [H1 H2]. destruct (IH H2) as [I1 I2]. clear IH H2.
  apply existsb_exists in H1 as ([s z'] & Hin & H). cbn [fst snd] in H. apply andb_true_iff in H as [Hz Hs].
  apply Z.eqb_eq in Hz as <-. apply streqb_eq in Hs. split.
  - intros z m. destruct (Z.eqb_spec k z) as [<-|]; [|apply I1]. intros [= <-]. now exists s.
  - intros z t. destruct (streqb t (L n)) eqn:E; [|apply I2]. intros [= <-]. apply streqb_eq in E as ->. now exists s.
Qed.
Lemma named_numbers (names : list (Z * string)) (proto : list (string * Z)) :
  forallb (fun q => match enum_name names (snd q) with
                    | Some n => streqb (L n) (camel (fst q))
                    | None => false
                    end) proto = true ->
  forall s z, In (s, z) proto -> exists n, enum_name names z = Some n /\ L n = camel s.
Proof.
  intros H s z Hin. rewrite forallb_forall in H. specialize (H _ Hin). cbn [fst snd] in H.
  destruct (enum_name names z) as [n|]; [|discriminate]. exists n. split; [reflexivity|]. now apply streqb_eq.
Qed.
Lemma unnamed (names : list (Z * string)) (proto : list (string * Z)) z :
  (forall z n, enum_name names z = Some n -> exists s, In (s, z) proto /\ L n = camel s) ->
  (forall s, ~ In (s, z) proto) -> enum_name names z = None.
Proof.
  intros H Hz. destruct (enum_name names z) as [n|] eqn:E; [|reflexivity].
  destruct (H _ _ E) as (s & Hs & _). now apply Hz in Hs.
Qed.


Lemma osep_errs sep l o x : In o l -> In x (o_errs o) -> In x (o_errs (osep sep l)).
Proof.
  intros Hin Hx. induction l as [|y l IH]; [destruct Hin|]. destruct l as [|z l]; [destruct Hin as [<-|[]]; exact Hx|].
  change (In x (o_errs y ++ o_errs (osep sep (z :: l)))). apply in_app_iff.
  destruct Hin as [<-|Hin]; [now left|right; now apply IH].
Qed.

Section Named.
  Context `{U : Unicode} `{F : Floats}.
  Variable reg : registry.
  Variable op : options.
  Variable e : exts.

  Lemma rel_text_inline d r name p n cols em adds cs :
    view_of reg op e r = View (mk_header (txt name) (Some (RaInline p n)) cols em false adds) cs ->
    exists rest, o_text (rel_out reg op e d r) = indent_text op d ++ name ++ L "[" ++ o_text (arguments_out p n) ++ L " => " ++ rest.
  Proof.
    intros H. unfold rel_out. rewrite H. cbn [view_out]. rewrite !o_text_app, inline_text. rewrite <- !app_assoc.
    eexists. reflexivity.
  Qed.
  Lemma rel_errs_inline d r name p n cols em adds cs o x :
    view_of reg op e r = View (mk_header (txt name) (Some (RaInline p n)) cols em false adds) cs ->
    In o p -> In x (o_errs o) -> In x (o_errs (rel_out reg op e d r)).
  Proof.
    intros H Hin Hx. unfold rel_out. rewrite H. cbn [view_out]. apply in_app_iff. left.
    unfold header_out. cbn [hd_args]. do 3 (apply in_app_iff; right). do 2 (apply in_app_iff; left).
    unfold arguments_out. destruct p as [|y p]; [destruct Hin|]. apply osep_errs with o; [|exact Hx].
    apply in_app_iff. now left.
  Qed.
  Lemma enum_unknown names z a b : enum_name names z = None -> o_errs (enum_out names z a b) <> [].
  Proof. intros H. unfold enum_out. rewrite H. destruct (z =? 0)%Z; discriminate. Qed.
  Lemma nonempty_in {A} (l : list A) : l <> [] -> exists x, In x l.
  Proof. destruct l as [|x l]; [congruence|]. exists x. now left. Qed.
  Lemma in_nonempty {A} (x : A) l : In x l -> l <> [].
  Proof. intros H ->. destruct H. Qed.
End Named.

Lemma join_names :
  (forall z n, enum_name join_types z = Some n -> exists s, In (s, z) proto_join_types /\ L n = camel s) /\
  (forall z t, enum_number join_types t = Some z -> exists s, In (s, z) proto_join_types /\ t = camel s) /\
  (forall s z, In (s, z) proto_join_types -> exists n, enum_name join_types z = Some n /\ L n = camel s).
Proof. destruct (numbers_named join_types proto_join_types) as [H1 H2]; [reflexivity|]. split; [exact H1|]. split; [exact H2|]. now apply named_numbers. Qed.
Lemma set_names :
  (forall z n, enum_name set_ops z = Some n -> exists s, In (s, z) proto_set_ops /\ L n = camel s) /\
  (forall z t, enum_number set_ops t = Some z -> exists s, In (s, z) proto_set_ops /\ t = camel s) /\
  (forall s z, In (s, z) proto_set_ops -> exists n, enum_name set_ops z = Some n /\ L n = camel s).
Proof. destruct (numbers_named set_ops proto_set_ops) as [H1 H2]; [reflexivity|]. split; [exact H1|]. split; [exact H2|]. now apply named_numbers. Qed.
Lemma sort_names :
  (forall z n, enum_name sort_directions z = Some n -> exists s, In (s, z) proto_sort_directions /\ L n = camel s) /\
  (forall z t, enum_number sort_directions t = Some z -> exists s, In (s, z) proto_sort_directions /\ t = camel s) /\
  (forall s z, In (s, z) proto_sort_directions -> exists n, enum_name sort_directions z = Some n /\ L n = camel s).
Proof. destruct (numbers_named sort_directions proto_sort_directions) as [H1 H2]; [reflexivity|]. split; [exact H1|]. split; [exact H2|]. now apply named_numbers. Qed.

(** A join line begins with the name of its type in camel case, and a number that
    names no type is reported. *)
Theorem C46_join_written : forall (U : Unicode) (F : Floats) reg op e d c l r x p t adv,
  (forall s, In (s, t) proto_join_types -> exists rest,
     o_text (rel_out reg op e d (RJoin c l r x p t adv))
     = indent_text op d ++ L "Join[&" ++ camel s ++ L ", " ++ rest) /\
  ((forall s, ~ In (s, t) proto_join_types) -> o_errs (rel_out reg op e d (RJoin c l r x p t adv)) <> []).
Proof.
  intros U F reg op e d c l r x p t adv. destruct join_names as (H1 & _ & H3). split.
  - intros s Hs. destruct (H3 s t Hs) as (n & Hn & En).
    edestruct (rel_text_inline reg op e d (RJoin c l r x p t adv)) as (rest & ->); [reflexivity|].
    rewrite text_arguments. unfold enum_out. rewrite Hn, En. destruct p; cbn [map app join fst snd o_text txt];
      rewrite <- ?app_assoc; eexists; reflexivity.
  - intros Ht. apply (unnamed _ _ _ H1) in Ht. destruct (nonempty_in _ (enum_unknown _ t "JoinType" "JoinRel" Ht)) as (y & Hy).
    apply (in_nonempty y). eapply rel_errs_inline; [reflexivity|now left|exact Hy].
Qed.
Theorem C46_set_written : forall (U : Unicode) (F : Floats) reg op e d c l o adv,
  (forall s, In (s, o) proto_set_ops -> exists rest,
     o_text (rel_out reg op e d (RSet c l o adv)) = indent_text op d ++ L "Set[&" ++ camel s ++ L " => " ++ rest) /\
  ((forall s, ~ In (s, o) proto_set_ops) -> o_errs (rel_out reg op e d (RSet c l o adv)) <> []).
Proof.
  intros U F reg op e d c l o adv. destruct set_names as (H1 & _ & H3). split.
  - intros s Hs. destruct (H3 s o Hs) as (n & Hn & En).
    edestruct (rel_text_inline reg op e d (RSet c l o adv)) as (rest & ->); [reflexivity|].
    rewrite text_arguments. unfold enum_out. rewrite Hn, En. eexists; reflexivity.
  - intros Ht. apply (unnamed _ _ _ H1) in Ht. destruct (nonempty_in _ (enum_unknown _ o "SetOp" "SetRel" Ht)) as (y & Hy).
    apply (in_nonempty y). eapply rel_errs_inline; [reflexivity|now left|exact Hy].
Qed.
(** The same for sort fields, which are written as pairs. *)
Theorem C46_sort_written : forall (U : Unicode) (F : Floats) reg op e d c i fields adv,
  (forall names, fields <> [] ->
     Forall2 (fun f s => exists z, sf_kind f = Some (SkDirection z) /\ In (s, z) proto_sort_directions) fields names ->
     exists shown rest,
       Forall2 (fun f x => forall y, sf_expr f = Some y -> x = o_text (expr_out op e y)) fields shown /\
       o_text (rel_out reg op e d (RSort c i fields adv))
       = indent_text op d ++ L "Sort["
         ++ join (L ", ") (map (fun p => L "(" ++ fst p ++ L ", &" ++ camel (snd p) ++ L ")") (combine shown names))
         ++ L " => " ++ rest) /\
  (forall f z, In f fields -> sf_kind f = Some (SkDirection z) -> (forall s, ~ In (s, z) proto_sort_directions) ->
     o_errs (rel_out reg op e d (RSort c i fields adv)) <> []).
Proof.
  intros U F reg op e d c i fields adv. destruct sort_names as (H1 & _ & H3). split.
  - intros names Hne Hk. edestruct (rel_text_inline reg op e d (RSort c i fields adv)) as (rest & ->); [reflexivity|].
    exists (map (fun f => o_text (opt_expr_out op e FUnimplemented "SortField" (sf_expr f))) fields), rest. split.
    + clear. induction fields as [|f l IH]; constructor; [|exact IH]. intros y ->. reflexivity.
    + rewrite text_arguments. 
      transitivity (indent_text op d ++ L "Sort" ++ L "[" ++ join (L ", ") (map o_text (map (sort_field_out op e) fields)) ++ L " => " ++ rest).
      { destruct fields as [|f l]; [congruence|]. cbn [map]. now rewrite app_nil_r. }
      change (L "Sort[") with (L "Sort" ++ L "["). rewrite <- !app_assoc. do 4 f_equal. f_equal. clear Hne.
      induction Hk as [|f s l ns (z & Hf & Hs) _ IH]; [reflexivity|]. cbn [map combine]. f_equal; [|exact IH].
      destruct (H3 _ _ Hs) as (n & Hn & En). unfold sort_field_out, tuple_out. rewrite !o_text_app, text_osep.
      cbn [map join]. unfold sort_kind_out. rewrite Hf. unfold enum_out. rewrite Hn. cbn [o_text txt fst snd]. rewrite En.
      rewrite <- ?app_assoc. reflexivity.
  - intros f z Hin Hf Hz. apply (unnamed _ _ _ H1) in Hz. destruct (nonempty_in _ (enum_unknown _ z "SortKind" "SortKind" Hz)) as (y & Hy).
    apply (in_nonempty y). eapply rel_errs_inline; [reflexivity|now apply in_map, Hin|].
    unfold sort_field_out, tuple_out, sort_kind_out. rewrite Hf. apply in_app_iff. right. apply in_app_iff. left.
    eapply osep_errs; [right; left; reflexivity|exact Hy].
Qed.

(** Reading a name gives the number it stands for. *)
Theorem C46_read : forall (F : Floats) e cs adv r w,
  (forall tok x post refs, lower_rel e (YJoin tok x post refs) cs adv = Ok (r, w) ->
     exists c a b x' p t s, r = RJoin c a b x' p t adv /\ In (s, t) proto_join_types /\ tl tok = camel s) /\
  (forall tok refs, lower_rel e (YSet tok refs) cs adv = Ok (r, w) ->
     exists c l o s, r = RSet c l o adv /\ In (s, o) proto_set_ops /\ tl tok = camel s) /\
  (forall fields refs, lower_rel e (YSort fields refs) cs adv = Ok (r, w) ->
     exists c i l, r = RSort c i l adv /\
       Forall2 (fun y f => exists z s, sf_kind f = Some (SkDirection z) /\ In (s, z) proto_sort_directions /\
                             tl (snd y) = camel s) fields l).
Proof.
  intros F e cs adv r w. split; [|split]; intros *; cbn [lower_rel]; intros H.
  - apply rbind_ok in H as ([a b] & _ & H). apply rbind_ok in H as (t & Ht & H).
    apply rbind_ok in H as (x' & _ & H). apply rbind_ok in H as (p & _ & H). apply rbind_ok in H as (q & _ & H).
    injection H as <- _. cbn [fst snd]. unfold unwrap in Ht. destruct (enum_number _ _) as [t'|] eqn:E; [|discriminate].
    injection Ht as <-. destruct join_names as (_ & H2 & _). destruct (H2 _ _ E) as (s & Hs & Et).
    do 7 eexists. split; [reflexivity|]. split; [exact Hs|exact Et].
  - destruct cs as [|a [|b cs]]; try discriminate. destruct (forallb _ _); [|discriminate].
    apply rbind_ok in H as (t & Ht & H). apply rbind_ok in H as (q & _ & H).
    injection H as <- _. unfold unwrap in Ht. destruct (enum_number _ _) as [t'|] eqn:E; [|discriminate].
    injection Ht as <-. destruct set_names as (_ & H2 & _). destruct (H2 _ _ E) as (s & Hs & Et).
    do 4 eexists. split; [reflexivity|]. split; [exact Hs|exact Et].
  - apply rbind_ok in H as (i & _ & H). apply rbind_ok in H as (l & Hl & H). apply rbind_ok in H as (q & _ & H).
    injection H as <- _. do 3 eexists. split; [reflexivity|]. apply rlist_ok_inv in Hl.
    induction Hl as [|y f fields l Hy _ IH]; constructor; [|exact IH]. unfold lower_sort_field in Hy.
    apply rbind_ok in Hy as (x & _ & Hy). destruct (enum_number _ _) as [z|] eqn:E; [|discriminate]. injection Hy as <-.
    destruct sort_names as (_ & H2 & _). destruct (H2 _ _ E) as (s & Hs & Et). exists z, s. auto.
Qed.

Section Examples.
  #[local] Existing Instance ascii_tables.
  #[local] Existing Instance toy_floats.
  Definition ag_read : prel :=
    RRead (mk_read direct (Some (mk_named_struct [L "a"; L "b"] (Some ([px_i64; px_i64], 0%N, NRequired)))) None (ReadNamed [L "t"]) None false).
  (** C45: two sets sharing an expression, below a filter. *)
  Definition ag_groups : list grouping := [mk_grouping [] [ex_field 1; ex_field 0]; mk_grouping [] [ex_field 0]; mk_grouping [] []].
  Definition ag_old : prel := RFilter direct (Some (RAggregate direct (Some ag_read) [] ag_groups [] None)) (Some ex_expr) None.
  Definition ag_new : prel := RFilter direct (Some (RAggregate direct (Some ag_read) [ex_field 1; ex_field 0]
    [mk_grouping [0; 1]%N []; mk_grouping [1]%N []; mk_grouping [] []] [] None)) (Some ex_expr) None.
  Example ag_modernized : modernized ag_old ag_new.
  Proof.
    apply mo_filter, (mo_groupings [[ex_field 1; ex_field 0]; [ex_field 0]; []]); [discriminate| |].
    - split; reflexivity.
    - split; [vm_compute; reflexivity|]. repeat constructor.
  Qed.
  (** C45: the empty set first. *)
  Example ag_lost : exists p p' text, p <> p' /\
    pl_rels _ p = [PRel (RAggregate direct (Some ag_read) [] [mk_grouping [] []; mk_grouping [] [ex_field 1]] [] None)] /\
    format registry_new opts_default p = txt text /\ format registry_new opts_default p' = txt text.
  Proof.
    exists (mk_plan _ None [] [] [PRel (RAggregate direct (Some ag_read) [] [mk_grouping [] []; mk_grouping [] [ex_field 1]] [] None)]),
      (mk_plan _ None [] [] [PRel (RAggregate direct (Some ag_read) [] [mk_grouping [] []; mk_grouping [] []] [] None)]).
    eexists. split; [discriminate|]. split; [reflexivity|]. split; vm_compute; reflexivity.
  Qed.
  (** C46: the name of a right semi join. *)
  Example ag_camel : In ("RIGHT_SEMI", 8%Z) proto_join_types /\ camel "RIGHT_SEMI" = L "RightSemi".
  Proof. split; [cbn; tauto|reflexivity]. Qed.

  (** A clustered sort is written without complaint and cannot be read. *)
  Theorem C46_clustered_refuted : exists p, In ("CLUSTERED", 5%Z) proto_sort_directions /\
    pl_rels _ p = [PRel (RSort direct (Some ag_read) [mk_sort_field (Some (ex_field 0)) (Some (SkDirection 5))] None)] /\
    o_errs (format registry_new opts_default p) = [] /\ o_panics (format registry_new opts_default p) = [] /\
    exists er, parse registry_new (o_text (format registry_new opts_default p)) = Err er.
  Proof.
    exists (mk_plan _ None [] [] [PRel (RSort direct (Some ag_read) [mk_sort_field (Some (ex_field 0)) (Some (SkDirection 5))] None)]).
    split; [cbn; tauto|]. split; [reflexivity|]. split; [vm_compute; reflexivity|]. split; [vm_compute; reflexivity|].
    eexists. vm_compute. reflexivity.
  Qed.
End Examples.
