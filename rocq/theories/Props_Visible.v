(** What formatting passes over in silence. *)
From Coq Require Import String List NArith ZArith Bool Lia PeanoNat.
From Verif Require Import Base BaseFacts Peg Names SpecNames SimpleExt SimpleExtFacts SpecExt Out Anchors
  Types SpecTypes TypesFacts Literals SpecLiterals Exprs SpecExprs ExprsFacts ExprEq
  ExtArgs Registry Rels SpecRels RelGrammar RelRead Structural Version Plan SpecPlan PlanFacts OutClosed
  SpecVisible PegYields RelReadFacts RelTreeFacts RelGrammarFacts CrashFacts SpecFormat Props_Ext Props_Exprs Props_Literals SpecRegistry Props_Registry Props_Plan.
Import ListNotations.
Local Open Scope string_scope.
Local Open Scope list_scope.
Local Open Scope nat_scope.

Lemma map_ext_Forall {A B} (f g : A -> B) l : Forall (fun x => f x = g x) l -> map f l = map g l.
Proof. induction 1 as [|x l E _ IH]; cbn; [reflexivity|]. now rewrite E, IH. Qed.
Lemma map_id_Forall {A} (f : A -> A) l : Forall (fun x => f x = x) l -> map f l = l.
Proof. induction 1 as [|x l E _ IH]; cbn; [reflexivity|]. now rewrite E, IH. Qed.

Section Same.
  Context (U : Unicode) (F : Floats).
  Variables (reg : registry) (op : options) (e : exts).

  Lemma type_same : forall t, type_out op e (visible_type t) = type_out op e t.
  Proof.
    apply (ptype_ind2 (fun t => type_out op e (visible_type t) = type_out op e t)
                      (fun p => param_out op e (visible_param p) = param_out op e p));
      intros; cbn [visible_type visible_param type_out param_out]; try reflexivity.
    - rewrite map_map. f_equal. now apply map_ext_Forall.
    - destruct t as [t|]; cbn [opt_map]; [|reflexivity]. now rewrite (H t eq_refl).
    - destruct a as [a|], b as [b|]; cbn [opt_map]; rewrite ?(H _ eq_refl), ?(H0 _ eq_refl); reflexivity.
    - rewrite map_map. f_equal. now apply map_ext_Forall.
    - exact H.
  Qed.
  Lemma opt_type_same (f : option ptype -> out) t :
    (forall t, f (Some (visible_type t)) = f (Some t)) -> f (opt_map visible_type t) = f t.
  Proof. destruct t; cbn; auto. Qed.

  Lemma literal_same l : literal_out op e (visible_literal l) = literal_out op e l.
  Proof.
    destruct l as [[v|] n k]; unfold visible_literal, literal_out; cbn [l_type l_nullable]; [|reflexivity].
    destruct v; cbn [l_type l_nullable]; try reflexivity. cbn [litval_out]. now rewrite type_same.
  Qed.
  Lemma reference_same f : fieldref_out (visible_reference f) = fieldref_out f.
  Proof. destruct f as [[[i c| |]| |] r]; reflexivity. Qed.

  Lemma output_type_same t : output_type_out op e (opt_map visible_type t) = output_type_out op e t.
  Proof. destruct t; cbn; [|reflexivity]. now rewrite type_same. Qed.
  Lemma expect_type_same m t : oexpect m (type_out op e) (opt_map visible_type t) = oexpect m (type_out op e) t.
  Proof. destruct t; cbn; [|reflexivity]. now rewrite type_same. Qed.

  Lemma invocation_same r args args' opts : args = args' ->
    invocation_out op e r args opts = invocation_out op e r args' opts.
  Proof. now intros ->. Qed.

  Lemma expr_arg_same :
    (forall x, expr_out op e (visible_expr x) = expr_out op e x) /\
    (forall a, arg_out op e (visible_arg a) = arg_out op e a).
  Proof.
    assert (G : forall f x, opt_all (fun x => expr_out op e (visible_expr x) = expr_out op e x) x ->
      match opt_map visible_expr x with Some y => expr_out op e y | None => f end
      = match x with Some y => expr_out op e y | None => f end).
    { intros f [x|] H; cbn in *; auto. }
    assert (K : forall x, expr_out op e (visible_expr x) = expr_out op e x).
    { apply (pexpr_ind2 (fun x => expr_out op e (visible_expr x) = expr_out op e x)
                        (fun a => arg_out op e (visible_arg a) = arg_out op e a));
        intros; cbn [visible_expr visible_arg expr_out arg_out]; auto using literal_same, reference_same, type_same.
      - rewrite output_type_same, map_map. f_equal. apply invocation_same. now apply map_ext_Forall.
      - rewrite map_map. rewrite (G _ _ H0). do 2 f_equal. f_equal. apply map_ext_Forall.
        eapply Forall_impl; [|exact H]. intros [a b] [Ha Hb]. cbn [fst snd] in *. now rewrite (G _ _ Ha), (G _ _ Hb).
      - rewrite expect_type_same. now rewrite (G _ _ H). }
    split; [exact K|]. intros [t|x|s|]; cbn [visible_arg arg_out]; auto using type_same.
  Qed.
  Definition expr_same := proj1 expr_arg_same.
  Definition arg_same := proj2 expr_arg_same.

  Lemma exprs_same l : map (expr_out op e) (map visible_expr l) = map (expr_out op e) l.
  Proof. rewrite map_map. apply map_ext. exact expr_same. Qed.
  Lemma opt_expr_same k m x : opt_expr_out op e k m (opt_map visible_expr x) = opt_expr_out op e k m x.
  Proof. destruct x; cbn; auto using expr_same. Qed.
  Lemma aggfn_same a : aggfn_out op e (visible_aggfn a) = aggfn_out op e a.
  Proof.
    unfold aggfn_out, visible_aggfn. cbn. rewrite output_type_same, map_map. f_equal. apply invocation_same.
    apply map_ext. exact arg_same.
  Qed.

  (** ** Headers *)

  Definition same_emit (a b : option emit_kind) : Prop :=
    match a, b with
    | Some (EmEmit m), Some (EmEmit m') => m = m'
    | Some (EmEmit _), _ | _, Some (EmEmit _) => False
    | _, _ => True
    end.
  Lemma common_same c : same_emit (get_emit (visible_common c)) (get_emit c).
  Proof. destruct c as [[[[|m]|] x]|]; cbn; auto. Qed.

  Definition hsame (h h' : header) : Prop :=
    hd_emitted h = hd_emitted h' /\ (forall d, header_out op d h = header_out op d h') /\ hd_addenda h = hd_addenda h'.
  Lemma header_same n a cols em em' x adds : same_emit em em' ->
    hsame (mk_header n a cols em x adds) (mk_header n a cols em' x adds).
  Proof.
    intros H. unfold hsame, header_out, output_clause, shown_columns, hd_emitted, emit_suffix_out. cbn.
    destruct em as [[|m]|], em' as [[|m']|]; cbn in H; try contradiction; subst; repeat split; reflexivity.
  Qed.

  Lemma adv_same a : adv_lines reg op e (visible_adv a) = adv_lines reg op e a.
  Proof. destruct a as [[[d|] [|x l]]|]; reflexivity. Qed.

  Lemma zip_same ns : forall ts, zip_fields op e ns (map visible_type ts) = zip_fields op e ns ts.
  Proof.
    assert (G : forall n t, field_out op e n (Some (visible_type t)) = field_out op e n (Some t)).
    { intros. unfold field_out. cbn [oexpect]. now rewrite type_same. }
    induction ns as [|n ns IH]; intros [|t ts]; cbn [map zip_fields]; try reflexivity.
    - rewrite G. f_equal. induction ts as [|t' ts IH']; cbn; [reflexivity|]. now rewrite G, IH'.
    - now rewrite G, IH.
  Qed.
  Lemma columns_same r : read_columns op e (visible_read r) = read_columns op e r.
  Proof.
    unfold read_columns, visible_read. cbn. destruct (rd_schema r) as [s|]; cbn; [|reflexivity]. apply zip_same.
  Qed.

  Lemma read_same r : hsame (read_header reg op e (visible_read r)) (read_header reg op e r).
  Proof.
    unfold read_header. rewrite columns_same. cbn [visible_read rd_common rd_type rd_adv rd_filter]. rewrite adv_same.
    assert (X : forall A (a b : A), (match get_emit (visible_common (rd_common r)) with Some (EmEmit _) => a | _ => b end)
                    = (match get_emit (rd_common r) with Some (EmEmit _) => a | _ => b end)).
    { intros. pose proof (common_same (rd_common r)) as H. revert H.
      destruct (get_emit (visible_common _)) as [[|m]|], (get_emit (rd_common r)) as [[|m']|]; cbn; intros; try contradiction; reflexivity. }
    destruct (rd_type r) as [names|rows|d| |]; cbv beta iota.
    - rewrite X. apply header_same, common_same.
    - rewrite map_map, map_length.
      rewrite (map_ext (fun x => tuple_out (map (expr_out op e) (map visible_expr x))) (fun x => tuple_out (map (expr_out op e) x)))
        by (intros; now rewrite exprs_same).
      destruct (rd_filter r) as [f|]; cbn [opt_map]; rewrite ?expr_same; apply header_same, common_same.
    - apply header_same, common_same.
    - apply header_same, common_same.
    - apply header_same, common_same.
  Qed.

  (** ** Trees *)

  Definition vsame (v v' : view) : Prop :=
    emitted v = emitted v' /\ forall d, view_out op d v = view_out op d v'.
  Definition osame (v v' : option view) : Prop :=
    match v, v' with
    | Some v, Some v' => vsame v v'
    | None, None => True
    | _, _ => False
    end.

  Lemma view_same h h' cs cs' : hsame h h' -> Forall2 osame cs cs' -> vsame (View h cs) (View h' cs').
  Proof.
    intros (H1 & H2 & H3) Hc. split; [exact H1|]. intros d. cbn [view_out]. rewrite H2, H3. f_equal. f_equal.
    induction Hc as [|c c' cs cs' Hx _ IH]; cbn [map fold_right]; [reflexivity|]. rewrite IH. f_equal.
    destruct c as [v|], c' as [v'|]; cbn in Hx; try contradiction; [|reflexivity]. now rewrite (proj2 Hx).
  Qed.
  Lemma width_same v v' : osame v v' -> width v = width v'.
  Proof. destruct v, v'; cbn; try contradiction; [now intros []|reflexivity]. Qed.
  Lemma emitted_same l l' : Forall2 vsame l l' -> map emitted l = map emitted l'.
  Proof. induction 1 as [|a b l l' H _ IH]; cbn; [reflexivity|]. now rewrite (proj1 H), IH. Qed.
  Lemma somes_same l l' : Forall2 vsame l l' -> Forall2 osame (map Some l) (map Some l').
  Proof. induction 1; cbn; constructor; auto. Qed.

  Let child (i : option prel) : option view := match i with Some r => Some (view_of reg op e r) | None => None end.
  Let rsame (r : prel) : Prop := vsame (view_of reg op e (visible_rel r)) (view_of reg op e r).
  Lemma child_same i : opt_P rsame i -> osame (child (opt_map visible_rel i)) (child i).
  Proof. destruct i; cbn; auto. Qed.
  Lemma children_same l : Forall rsame l ->
    Forall2 vsame (map (view_of reg op e) (map visible_rel l)) (map (view_of reg op e) l).
  Proof. induction 1; cbn; constructor; auto. Qed.

  Lemma measures_same l : measure_outs op e (visible_measures l) = measure_outs op e l.
  Proof.
    induction l as [|[[a|] f] l IH]; cbn; [reflexivity| |exact IH]. now rewrite aggfn_same, IH.
  Qed.
  Lemma grouping_same xs gs :
    grouping_values op e (map visible_expr xs) (visible_groups xs gs)
    = (map visible_expr (fst (grouping_values op e xs gs)), snd (grouping_values op e xs gs)) \/
    (old_groups xs gs = true /\ grouping_values op e (map visible_expr xs) (visible_groups xs gs) = grouping_values op e xs gs).
  Proof.
    unfold visible_groups. destruct (old_groups xs gs) eqn:E.
    - right. split; [reflexivity|]. destruct xs; [|discriminate]. destruct gs as [|[rs [|y ys]] gs]; try discriminate.
      unfold grouping_values. cbn [map length Nat.eqb andb gr_exprs negb concat]. rewrite !map_map. cbn [gr_exprs]. reflexivity.
    - left.
      assert (N : forall i, match nth_error (map visible_expr xs) i with Some x => expr_out op e x | None => missing FInvalid "AggregateRel" end
                = match nth_error xs i with Some x => expr_out op e x | None => missing FInvalid "AggregateRel" end).
      { intros i. rewrite nth_error_map. destruct (nth_error xs i); cbn [option_map]; [apply expr_same|reflexivity]. }
      assert (C1 : (length (map visible_expr xs) =? 0) && false = false) by apply andb_false_r.
      unfold grouping_values. destruct gs as [|[rs ys] gs].
      + cbn [gr_exprs length Nat.eqb negb]. rewrite C1, andb_false_r. reflexivity.
      + cbn [map gr_exprs length Nat.eqb negb]. rewrite C1.
        assert (C2 : (length xs =? 0) && negb (length ys =? 0) = false).
        { destruct xs; [|reflexivity]. destruct ys; [reflexivity|discriminate]. }
        rewrite C2. cbn [fst snd gr_refs]. f_equal. f_equal.
        * apply map_ext. intros. apply N.
        * rewrite map_map. cbn [gr_refs]. apply map_ext. intros. apply map_ext. intros. apply N.
  Qed.
  Lemma aggregate_same c xs gs ms adv :
    hsame (aggregate_header reg op e (visible_common c) (map visible_expr xs) (visible_groups xs gs) (visible_measures ms) (visible_adv adv))
          (aggregate_header reg op e c xs gs ms adv).
  Proof.
    unfold aggregate_header. rewrite measures_same, adv_same.
    destruct (grouping_same xs gs) as [-> | [_ ->]]; destruct (grouping_values op e xs gs) as [ys sets]; cbn [fst snd];
      rewrite ?exprs_same; apply header_same, common_same.
  Qed.

  Lemma rel_same : forall r, rsame r.
  Proof.
    apply prel_ind2; unfold rsame; intros; cbn [visible_rel view_of]; fold child;
      repeat match goal with
             | H : opt_P _ ?i |- _ => apply child_same in H; unfold child in H; fold child in H
             | H : Forall _ ?l |- _ => apply children_same in H
             end;
      try (apply view_same; [|now repeat constructor]).
    - apply read_same.
    - rewrite (width_same _ _ H). unfold filter_header. rewrite opt_expr_same, adv_same. apply header_same, common_same.
    - rewrite (width_same _ _ H). unfold project_header. rewrite exprs_same, adv_same. apply header_same, common_same.
    - apply aggregate_same.
    - rewrite (width_same _ _ H). unfold sort_header. rewrite adv_same, map_map.
      rewrite (map_ext (fun x => sort_field_out op e (visible_sort x)) (sort_field_out op e))
        by (intros; unfold sort_field_out; cbn; now rewrite opt_expr_same).
      apply header_same, common_same.
    - rewrite (width_same _ _ H). unfold fetch_header. rewrite adv_same.
      assert (X : forall s m, fetch_arg op e s (opt_map visible_bound m) = fetch_arg op e s m).
      { intros s [[x|z]|]; cbn; [|reflexivity|reflexivity]. now rewrite expr_same. }
      rewrite !X. apply header_same, common_same.
    - rewrite (width_same _ _ H), (width_same _ _ H0). unfold join_header. rewrite opt_expr_same, adv_same.
      destruct p; cbn [opt_map]; rewrite ?expr_same; apply header_same, common_same.
    - apply view_same; [|now apply somes_same]. rewrite (emitted_same _ _ H). unfold set_header. rewrite adv_same.
      apply header_same, common_same.
    - rewrite (width_same _ _ H), (width_same _ _ H0). unfold cross_header. rewrite adv_same. apply header_same, common_same.
    - repeat split; reflexivity.
    - destruct i as [r|]; cbn [opt_map] in *; [cbn in H; rewrite (proj1 H)|]; repeat split; reflexivity.
    - apply view_same; [|now apply somes_same]. rewrite (emitted_same _ _ H). repeat split; reflexivity.
    - repeat split; reflexivity.
    - repeat split; reflexivity.
  Qed.

  Lemma plan_rel_same p : plan_rel_out reg op e (visible_plan_rel p) = plan_rel_out reg op e p.
  Proof.
    destruct p as [r|names [r|]|]; cbn [visible_plan_rel plan_rel_out opt_map]; try reflexivity.
    - apply (proj2 (rel_same r)).
    - do 2 f_equal. apply (proj2 (rel_same r)).
  Qed.
End Same.

(** ** C43 *)

(** Neither the text nor the errors depend on what [visible_plan] leaves out. *)
Theorem C43_passed_over : forall (U : Unicode) (F : Floats) reg op p p',
  visible_plan p = visible_plan p' -> format reg op p = format reg op p'.
Proof.
  assert (G : forall (U : Unicode) (F : Floats) reg op p, format reg op (visible_plan p) = format reg op p).
  { intros. unfold format, visible_plan. cbn [pl_urns pl_decls pl_version pl_rels].
    destruct (from_extensions (pl_urns _ p) (pl_decls _ p)) as [e errs]. do 4 f_equal.
    unfold relations_out. do 3 f_equal. rewrite map_map. apply map_ext. intros. apply plan_rel_same. }
  intros. rewrite <- (G U F reg op p), H. apply G.
Qed.

(** ** What is read has nothing to pass over *)

Definition plain_type (t : ptype) : Prop :=
  visible_type t = t /\ match t with TSimple _ _ v | TPrec _ _ _ v | TIntervalDay _ _ v => v = 0%N | _ => True end.

Lemma params_loop_ok {A B} (f : A -> pres B) (P : B -> Prop) l ps :
  Forall (fun x => forall y, f x = Ok y -> P y) l -> params_loop f l = Ok ps -> Forall P ps.
Proof.
  revert ps. induction l as [|x l IH]; intros ps Hf H; cbn [params_loop] in H.
  - injection H as <-. constructor.
  - apply rbind_ok in H as (y & Hy & H). apply rbind_ok in H as (ys & Hys & H). injection H as <-.
    inversion Hf; subst. constructor; [|eauto]. destruct l; [auto|apply guard_drop_ok in Hy; auto].
Qed.
Lemma rlist_Forall {E A B} (f : A -> res E B) (P : B -> Prop) l l' :
  Forall (fun x => forall y, f x = Ok y -> P y) l -> rlist f l = Ok l' -> Forall P l'.
Proof.
  intros Hf H. apply rlist_ok_inv in H. induction H as [|x y l l' Hx _ IH]; [constructor|].
  inversion Hf; subst. constructor; auto.
Qed.
Lemma Forall_all {A} (P : A -> Prop) : (forall x, P x) -> forall l, Forall P l.
Proof. intros H l. apply Forall_forall. auto. Qed.

Lemma lower_type_plain e : forall c t, lower_type e c = Ok t -> plain_type t.
Proof.
  apply (tcst_ind2 (fun c => forall t, lower_type e c = Ok t -> plain_type t)
           (fun c => forall p, lower_param e c = Ok p -> visible_param p = p)); cbn [lower_type lower_param]; intros; try discriminate.
  - destruct (simple_kind s); [|discriminate]. injection H as <-. split; reflexivity.
  - apply rmap_ok in H0 as (t' & Ht & ->). destruct (H _ Ht) as [E _]. split; [|exact I]. cbn [visible_type opt_map]. now rewrite E.
  - apply rmap_ok in H as (p' & _ & ->). split; reflexivity.
  - apply rmap_ok in H as (p' & _ & ->). split; reflexivity.
  - apply rbind_ok in H0 as (x & _ & H0). apply rbind_ok in H0 as (y & _ & H0). apply rbind_ok in H0 as (ps' & Hps & H0).
    apply rbind_ok in H0 as (r & _ & H0). injection H0 as <-. split; [|exact I]. cbn [visible_type]. f_equal.
    apply map_id_Forall. destruct ps as [l|]; [|injection Hps as <-; constructor].
    eapply params_loop_ok; [|exact Hps]. auto.
  - apply rmap_ok in H0 as (t' & Ht & ->). destruct (H _ Ht) as [E _]. cbn [visible_param]. now rewrite E.
Qed.

Section Plain.
  Context (F : Floats).
  Variables (reg : registry) (e : exts).

  Lemma lower_literal_plain c l : lower_literal e c = Ok l -> visible_literal l = l.
  Proof.
    unfold lower_literal. intros H. apply rbind_ok in H as (t & Ht & H).
    assert (Hp : match t with Some t => plain_type t | None => True end).
    { destruct (snd c) as [tc|]; [|injection Ht as <-; exact I]. apply rmap_ok in Ht as (t' & Ht & ->). now apply lower_type_plain in Ht. }
    assert (G : forall v n k, (match v with LNull _ => False | _ => True end) -> k = 0%N -> visible_literal (mk_lit (Some v) n k) = mk_lit (Some v) n k).
    { intros v n k Hv ->. destruct v; try reflexivity; contradiction. }
    destruct (fst c) as [s|s|s|s|].
    - unfold to_float_literal in H. destruct t as [[k n v|k p n v|p n v|p n v|k p n v|p q n v|ts n v|t n v|a b n v|r ps n v|r| | |]|]; try discriminate;
        try destruct k; try discriminate; injection H as <-; apply G; try exact I; try reflexivity; apply Hp.
    - unfold to_int_literal in H. apply rbind_ok in H as (z & _ & H). destruct t as [[k n v|k p n v|p n v|p n v|k p n v|p q n v|ts n v|t n v|a b n v|r ps n v|r| | |]|]; try discriminate;
        try destruct k; try discriminate; injection H as <-; apply G; try exact I; try reflexivity; apply Hp.
    - unfold to_boolean_literal in H. destruct t as [[k n v|k p n v|p n v|p n v|k p n v|p q n v|ts n v|t n v|a b n v|r ps n v|r| | |]|]; try discriminate;
        try destruct k; try discriminate; injection H as <-; apply G; try exact I; try reflexivity; apply Hp.
    - unfold to_string_literal in H. apply rbind_ok in H as (x & _ & H). destruct t as [[k n v|k p n v|p n v|p n v|k p n v|p q n v|ts n v|t n v|a b n v|r ps n v|r| | |]|]; try discriminate;
        try destruct k; try discriminate;
        try (destruct (match p with Some p => prec_of_units p | None => None end); [|discriminate]);
        try (apply rbind_ok in H as (z & _ & H)); injection H as <-; apply G; try exact I; try reflexivity; apply Hp.
    - unfold to_null_literal in H. destruct t as [t|]; [|discriminate]. injection H as <-. unfold visible_literal. cbn. now rewrite (proj1 Hp).
  Qed.

  Lemma lower_expr_plain : forall c x, lower_expr e c = Ok x -> visible_expr x = x.
  Proof.
    induction c as [ifs els IH1 IH2|x b t IH|f args t IH|s|c] using ecst_ind2; cbn [lower_expr]; intros y H.
    - apply rbind_ok in H as (l & Hl & H). apply rbind_ok in H as (z & Hz & H). injection H as <-. cbn [visible_expr opt_map].
      rewrite (IH2 _ Hz). f_equal. apply map_id_Forall. clear - IH1 Hl. revert l Hl. induction ifs as [|p ifs IH]; intros l H; cbn [clauses_loop] in H.
      + injection H as <-. constructor.
      + apply rbind_ok in H as (q & Hq & H). apply guard_drop_ok in Hq. apply rbind_ok in H as (qs & Hqs & H). injection H as <-.
        inversion IH1 as [|? ? [A B]]; subst. constructor; [|auto]. apply rbind_ok in Hq as (a & Ha & Hq). apply rbind_ok in Hq as (b & Hb & Hq).
        injection Hq as <-. cbn [fst snd opt_map]. now rewrite (A _ Ha), (B _ Hb).
    - apply rbind_ok in H as (z & Hz & H). apply rbind_ok in H as (u & Hu & H). injection H as <-. cbn [visible_expr opt_map].
      rewrite (IH _ Hz). now rewrite (proj1 (lower_type_plain _ _ _ Hu)).
    - apply rbind_ok in H as (a & _ & H). apply rbind_ok in H as (l & Hl & H). apply rbind_ok in H as (u & Hu & H). apply rbind_ok in H as (r & _ & H).
      injection H as <-. cbn [visible_expr opt_map]. rewrite (proj1 (lower_type_plain _ _ _ Hu)). f_equal. apply map_id_Forall.
      eapply rlist_Forall; [|exact Hl]. eapply Forall_impl; [|exact IH]. intros c Hc y Hy. apply rmap_ok in Hy as (z & Hz & ->). cbn [visible_arg]. now rewrite (Hc _ Hz).
    - apply rmap_ok in H as (i & _ & ->). reflexivity.
    - apply rmap_ok in H as (l & Hl & ->). cbn [visible_expr]. now rewrite (lower_literal_plain _ _ Hl).
  Qed.
  Lemma lower_opt_plain c x : lower_opt_expr e c = Ok x -> opt_map visible_expr x = x.
  Proof.
    destruct c as [c|]; cbn [lower_opt_expr]; intros H; [|injection H as <-; reflexivity].
    apply rmap_ok in H as (y & Hy & ->). cbn [opt_map]. now rewrite (lower_expr_plain _ _ Hy).
  Qed.
  Lemma lower_exprs_plain l xs : lower_exprs e l = Ok xs -> Forall (fun x => visible_expr x = x) xs.
  Proof. apply rlist_Forall, Forall_all. exact lower_expr_plain. Qed.
  Lemma lower_measure_plain c a : lower_measure e c = Ok a -> visible_aggfn a = a.
  Proof.
    destruct c as [[f args] t]. cbn [lower_measure]. intros H.
    apply rbind_ok in H as (x & _ & H). apply rbind_ok in H as (l & Hl & H). apply rbind_ok in H as (u & Hu & H). apply rbind_ok in H as (r & _ & H).
    injection H as <-. unfold visible_aggfn. cbn. rewrite (proj1 (lower_type_plain _ _ _ Hu)). f_equal. apply map_id_Forall.
    eapply rlist_Forall; [|exact Hl]. apply Forall_all. intros c y Hy. apply rmap_ok in Hy as (z & Hz & ->). cbn [visible_arg]. now rewrite (lower_expr_plain _ _ Hz).
  Qed.

  Lemma columns_plain l cols : lower_columns e l = Ok cols -> visible_schema (build_named_struct cols) = build_named_struct cols.
  Proof.
    intros H. unfold visible_schema, build_named_struct. cbn. do 4 f_equal. apply map_id_Forall, Forall_map.
    eapply rlist_Forall; [|exact H]. apply Forall_all. intros c [n t] Hc. apply rbind_ok in Hc as (n' & _ & Hc).
    apply rbind_ok in Hc as (t' & Ht & Hc). injection Hc as <- <-. cbn. apply (proj1 (lower_type_plain _ _ _ Ht)).
  Qed.
  Lemma emit_plain k : visible_common (emit_common k) = emit_common k.
  Proof. destruct k; reflexivity. Qed.

  Lemma groups_plain g sets : lower_groups e g = Ok sets -> Forall (Forall (fun x => visible_expr x = x)) sets.
  Proof.
    destruct g as [l|l]; cbn [lower_groups]; intros H.
    - eapply rlist_Forall; [|exact H]. apply Forall_all. exact lower_exprs_plain.
    - apply rbind_ok in H as (xs & Hx & H). injection H as <-. constructor; [|constructor]. now apply lower_exprs_plain in Hx.
  Qed.
  Lemma intern_set_plain (P : pexpr -> Prop) l : forall xs, Forall P xs -> Forall P l -> Forall P (fst (intern_set xs l)).
  Proof.
    induction l as [|x l IH]; intros xs Hx Hl; cbn [intern_set]; [exact Hx|]. inversion Hl; subst.
    destruct (intern xs x) as [ys i] eqn:E. destruct (intern_set ys l) as [zs is] eqn:E2. cbn [fst].
    change zs with (fst (zs, is)). rewrite <- E2. apply IH; auto. unfold intern in E. destruct (first_pos 0 x xs); injection E as <- _; auto.
    apply Forall_app. auto.
  Qed.
  Lemma intern_sets_plain (P : pexpr -> Prop) l : forall xs ys gs, intern_sets xs l = (ys, gs) -> Forall P xs -> Forall (Forall P) l ->
    Forall P ys /\ Forall (fun g => gr_exprs g = []) gs /\ length gs = length l.
  Proof.
    induction l as [|s l IH]; intros xs ys gs H Hx Hl; cbn [intern_sets] in H.
    - injection H as <- <-. repeat split; auto.
    - inversion Hl; subst. pose proof (intern_set_plain P s xs Hx H2) as Hs. destruct (intern_set xs s) as [zs is]. cbn [fst] in Hs.
      destruct (intern_sets zs l) as [us hs] eqn:E. injection H as <- <-. destruct (IH _ _ _ E Hs H3) as (A & B & C).
      split; [exact A|]. split; [constructor; [reflexivity|exact B]|]. cbn [length]. now rewrite C.
  Qed.
  Lemma outputs_plain gexprs l : forall k p, lower_outputs e gexprs k l = Ok p -> visible_measures (fst p) = fst p.
  Proof.
    induction l as [|c l IH]; intros k p H; cbn [lower_outputs] in H; [injection H as <-; reflexivity|].
    apply rbind_ok in H as (x & _ & H). destruct (last_pos 0 x gexprs).
    - apply rbind_ok in H as (q & Hq & H). injection H as <-. cbn [fst]. eauto.
    - destruct c; try discriminate. apply rbind_ok in H as (m & Hm & H). apply rbind_ok in H as (q & Hq & H). injection H as <-.
      cbn [fst visible_measures]. rewrite (lower_measure_plain _ _ Hm), (IH _ _ Hq). reflexivity.
  Qed.
  Lemma project_plain n l : forall k p, lower_project e n k l = Ok p -> Forall (fun x => visible_expr x = x) (fst p).
  Proof.
    induction l as [|[s|c] l IH]; intros k p H; cbn [lower_project] in H; [injection H as <-; constructor| |].
    - apply rbind_ok in H as (i & _ & H). apply rbind_ok in H as (q & Hq & H). injection H as <-. cbn [fst]. eauto.
    - apply rbind_ok in H as (x & Hx & H). apply rbind_ok in H as (q & Hq & H). injection H as <-. cbn [fst].
      constructor; [now apply lower_expr_plain in Hx|eauto].
  Qed.
  Lemma fetch_plain what v m : lower_fetch_opt e what v = Ok m -> opt_map visible_bound m = m.
  Proof.
    destruct v as [v|]; cbn [lower_fetch_opt]; intros H; [|injection H as <-; reflexivity].
    apply rmap_ok in H as (y & Hy & ->). cbn [opt_map]. f_equal. destruct v as [s|c]; cbn [lower_fetch_value] in Hy.
    - destruct (parse_i64 s); [|discriminate]. destruct (z <? 0)%Z; [discriminate|]. injection Hy as <-. reflexivity.
    - apply rmap_ok in Hy as (x & Hx & ->). cbn [visible_bound]. now rewrite (lower_expr_plain _ _ Hx).
  Qed.
  Lemma standard_plain l a : standard_addenda reg l = Ok a -> visible_adv a = a.
  Proof.
    unfold standard_addenda. intros H. apply rbind_ok in H as ([enh opts] & _ & H).
    destruct enh, opts; injection H as <-; reflexivity.
  Qed.

  Definition sets_given (y : rline) : Prop := match y with YAggregate (GSets l) _ => l <> [] | _ => True end.
  Let plain (r : prel) : Prop := visible_rel r = r.

  Lemma lower_rel_plain y cs adv r w : sets_given y -> Forall (fun c => plain (fst c)) cs -> visible_adv adv = adv ->
    lower_rel e y cs adv = Ok (r, w) -> plain r.
  Proof.
    intros Hg Hc Ha H. unfold plain in *.
    assert (One : forall s i, one_child s cs = Ok i -> visible_rel i = i).
    { intros s i Hi. apply one_child_ok in Hi as (k & ->). now inversion Hc. }
    assert (Two : forall s p, two_children s cs = Ok p -> visible_rel (fst p) = fst p /\ visible_rel (snd p) = snd p).
    { intros s p Hp. destruct cs as [|[a1 a2] [|[b1 b2] [|? ?]]]; try discriminate. injection Hp as <-.
      inversion Hc as [|? ? X Y]; inversion Y; subst. now split. }
    destruct y; cbn [lower_rel] in H; try discriminate.
    - destruct cs; [|discriminate]. apply rbind_ok in H as (names & _ & H). apply rbind_ok in H as ([[cols c] n] & Ho & H).
      injection H as <- _. cbn [visible_rel]. unfold visible_read. cbn. rewrite Ha.
      destruct o as [l|l refs]; cbn [lower_output] in Ho.
      + apply rbind_ok in Ho as (cols' & Hl & Ho). injection Ho as -> <- <-. now rewrite (columns_plain _ _ Hl).
      + apply rbind_ok in Ho as (cols' & Hl & Ho). apply guard_drop_ok in Hl. destruct refs as [refs|].
        * apply rbind_ok in Ho as (m & _ & Ho). injection Ho as -> <- <-. now rewrite (columns_plain _ _ Hl).
        * injection Ho as -> <- <-. now rewrite (columns_plain _ _ Hl).
    - destruct cs; [|discriminate]. apply rbind_ok in H as (f' & Hf & H). apply guard_drop_ok in Hf. apply rbind_ok in H as (rows' & Hr & H).
      apply rbind_ok in H as (cols' & Hl & H). injection H as <- _. cbn [visible_rel]. unfold visible_read. cbn.
      rewrite Ha, (columns_plain _ _ Hl), (lower_opt_plain _ _ Hf). do 3 f_equal. apply map_id_Forall.
      eapply rlist_Forall; [|exact Hr]. apply Forall_all. intros a b Hb. apply lower_exprs_plain in Hb. now apply map_id_Forall.
    - apply rbind_ok in H as (i & Hi & H). apply rbind_ok in H as (x' & Hx & H). apply guard_drop_ok in Hx. apply rbind_ok in H as (p & _ & H).
      injection H as <- _. cbn [visible_rel opt_map]. now rewrite emit_plain, (One _ _ Hi), (lower_expr_plain _ _ Hx), Ha.
    - apply rbind_ok in H as (i & Hi & H). apply rbind_ok in H as (p & Hp & H). injection H as <- _. cbn [visible_rel opt_map].
      rewrite emit_plain, (One _ _ Hi), Ha. f_equal. apply map_id_Forall. now apply project_plain in Hp.
    - apply rbind_ok in H as (i & Hi & H). apply rbind_ok in H as (sets & Hs & H).
      destruct (build_grouping_fields sets) as [groups gexprs] eqn:Eb. apply rbind_ok in H as (p & Hp & H). injection H as <- _.
      unfold build_grouping_fields in Eb. destruct (intern_sets [] sets) as [xs gs] eqn:Ei. injection Eb as <- <-.
      destruct (intern_sets_plain _ _ _ _ _ Ei (Forall_nil _) (groups_plain _ _ Hs)) as (A & B & C).
      cbn [visible_rel opt_map]. rewrite emit_plain, (One _ _ Hi), Ha, (outputs_plain _ _ _ _ Hp), (map_id_Forall _ _ A). f_equal.
      assert (gs <> []).
      { destruct g as [l|l]; cbn [lower_groups sets_given] in *.
        - apply rlist_ok_inv in Hs. intros ->. destruct sets; [|discriminate]. inversion Hs; subst. congruence.
        - apply rbind_ok in Hs as (ys & _ & Hs). injection Hs as <-. intros ->. discriminate. }
      unfold visible_groups. assert (old_groups xs gs = false) as ->.
      { unfold old_groups. destruct xs; [|reflexivity]. destruct gs as [|[rs [|y ys]] gs]; try reflexivity. inversion B; discriminate. }
      destruct gs as [|g0 gs]; [congruence|]. apply map_id_Forall. eapply Forall_impl; [|exact B]. intros [rs ys] E. cbn in *. now rewrite E.
    - apply rbind_ok in H as (i & Hi & H). apply rbind_ok in H as (ss & Hs & H). apply rbind_ok in H as (p & _ & H). injection H as <- _.
      cbn [visible_rel opt_map]. rewrite emit_plain, (One _ _ Hi), Ha. f_equal. apply map_id_Forall.
      eapply rlist_Forall; [|exact Hs]. apply Forall_all. intros c s Hc'. apply rbind_ok in Hc' as (x & Hx & Hc'). apply guard_drop_ok in Hx.
      destruct (enum_number _ _); [|discriminate]. injection Hc' as <-. unfold visible_sort. cbn. now rewrite (lower_expr_plain _ _ Hx).
    - apply rbind_ok in H as (i & Hi & H). apply rbind_ok in H as (u & _ & H). apply rbind_ok in H as (p & _ & H).
      apply rbind_ok in H as (n & Hn & H). apply rbind_ok in H as (o & Ho & H). injection H as <- _.
      cbn [visible_rel opt_map]. now rewrite emit_plain, (One _ _ Hi), Ha, (fetch_plain _ _ _ Hn), (fetch_plain _ _ _ Ho).
    - apply rbind_ok in H as (lr & Hlr & H). apply rbind_ok in H as (jt & _ & H). apply rbind_ok in H as (x' & Hx & H). apply guard_drop_ok in Hx.
      apply rbind_ok in H as (post' & Hp & H). apply guard_drop_ok in Hp. apply rbind_ok in H as (p & _ & H). injection H as <- _.
      destruct (Two _ _ Hlr) as [T1 T2]. cbn [visible_rel opt_map].
      now rewrite emit_plain, T1, T2, (lower_expr_plain _ _ Hx), (lower_opt_plain _ _ Hp), Ha.
    - destruct cs as [|c [|c' cs]]; try discriminate. destruct (forallb _ _); [|discriminate].
      apply rbind_ok in H as (o' & _ & H). apply rbind_ok in H as (p & _ & H). injection H as <- _.
      cbn [visible_rel]. rewrite emit_plain, Ha. f_equal. change (fst c :: fst c' :: map fst cs) with (map fst (c :: c' :: cs)).
      apply map_id_Forall, Forall_map. exact Hc.
    - apply rbind_ok in H as (lr & Hlr & H). apply rbind_ok in H as (p & _ & H). injection H as <- _.
      destruct (Two _ _ Hlr) as [T1 T2]. cbn [visible_rel opt_map]. now rewrite emit_plain, T1, T2, Ha.
  Qed.

  Lemma parse_relation_plain y line ads cs r w : sets_given y -> Forall (fun c => plain (fst c)) cs ->
    parse_relation reg e y line ads cs = Ok (r, w) -> plain r.
  Proof.
    intros Hg Hc H.
    assert (G : (let? adv := standard_addenda reg ads in lift_plan line (lower_rel e y cs adv)) = Ok (r, w) -> plain r).
    { intros H'. apply rbind_ok in H' as (adv & Ha & H'). apply lift_plan_ok in H'. apply standard_plain in Ha. eapply lower_rel_plain; eauto. }
    destruct y; try (apply G; exact H); cbn [parse_relation] in H; clear G.
    - apply rbind_ok in H as (p & Hp & H). apply lift_plan_ok in H. destruct cs; [|discriminate].
      apply rbind_ok in H as (cols' & Hl & H). injection H as <- _. unfold plain. cbn [visible_rel]. unfold visible_read. cbn.
      rewrite (columns_plain _ _ Hl). do 2 f_equal. unfold extension_read_addenda in Hp.
      destruct (filter is_table ads) as [|a [|? ?]]; try discriminate. apply rbind_ok in Hp as (d & _ & Hp). apply rbind_ok in Hp as (adv & Ha & Hp).
      injection Hp as <-. now apply standard_plain in Ha.
    - destruct ads; [|discriminate]. apply rbind_ok in H as (a & _ & H). destruct (child_count_ok k (length cs)); [|discriminate].
      apply rbind_ok in H as (d & _ & H). injection H as <- _. unfold plain.
      assert (M : map visible_rel (map fst cs) = map fst cs) by (apply map_id_Forall, Forall_map; exact Hc).
      destruct k; cbn [create_rel visible_rel].
      + reflexivity.
      + destruct cs as [|c cs]; [reflexivity|]. cbn [map hd_error opt_map]. inversion Hc as [|? ? X _]; subst. now rewrite X.
      + now rewrite M.
  Qed.
End Plain.

Lemma sets_given_yields : yields sets_given g_relation.
Proof.
  assert (Ho : forall p : peg rline, yields (fun y => match y with YAggregate _ _ => False | _ => True end) p -> yields sets_given p).
  { intros p. apply yields_imp. intros []; cbn; tauto. }
  unfold g_relation. repeat apply yields_alt.
  all: unfold g_ext_read, g_virtual, g_read, g_filter, g_project, g_fetch, g_sort, g_join, g_set, g_cross, g_ext;
    try solve [apply Ho; other_line].
  unfold g_aggregate. do 2 apply yields_then.
  eapply yields_bind with (P := fun g => match g with GSets l => l <> [] | _ => True end).
  { unfold g_group_by. apply yields_alt.
    - eapply yields_bind; [apply yields_true|intros x _]. apply yields_then.
      eapply yields_bind; [apply yields_true|intros l _]. apply yields_ret. discriminate.
    - eapply yields_map; [apply yields_true|]. intros; exact I. }
  intros g Hg. apply yields_then. eapply yields_bind; [apply yields_true|intros o _]. apply yields_then. apply yields_ret. exact Hg.
Qed.

(** What was parsed has nothing that formatting passes over. *)
Theorem C43_parsed_is_visible : forall (U : Unicode) (F : Floats) reg s p, parse reg s = Ok p -> visible_plan p = p.
Proof.
  intros U F reg s p H.
  assert (G : Forall (fun q => exists i, plan_inputs q = [i] /\ visible_rel i = i) (pl_rels _ p)).
  { eapply parse_all; [|exact H]. intros e n r w Hn Hr. revert n r w Hn Hr.
    apply (build_rel_ind reg e readable (fun r _ => visible_rel r = r)). intros y line ads cs r w Hy Hc Hr.
    eapply parse_relation_plain; [|exact Hc|exact Hr]. revert y Hy Hr. intros y Hy _.
    apply (readable_yields sets_given sets_given_yields (fun _ => I) y Hy). }
  destruct p as [v us ds rels]. unfold visible_plan. cbn [pl_version pl_urns pl_decls pl_rels] in *. f_equal.
  apply map_id_Forall. eapply Forall_impl; [|exact G]. intros q (i & Hi & E).
  destruct q as [r|names [r|]|]; cbn in Hi; try discriminate; injection Hi as ->; cbn; now rewrite E.
Qed.

(** Clean plans with the same text are the same. *)
Theorem C43_clean_plans_told_apart : forall (U : Unicode) (F : Floats) reg op op' p p',
  ascii_sane U -> readable_options op -> readable_options op' -> plan_clean reg op p -> plan_clean reg op' p' ->
  o_text (format reg op p) = o_text (format reg op' p') -> p = p'.
Proof.
  intros U F reg op op' p p' Ha Ho Ho' H H' E.
  destruct (C01_plan_round_trip U F reg op p Ha Ho H) as (_ & _ & _ & R).
  destruct (C01_plan_round_trip U F reg op' p' Ha Ho' H') as (_ & _ & _ & R'). congruence.
Qed.

(** ** Examples *)
Section Examples.
  #[local] Existing Instance ascii_tables.
  #[local] Existing Instance toy_floats.

  (** A read of a named table with a filter, a best-effort filter and a schema of
      missing nullability; an aggregate with a filtered measure in the result phase;
      a filter on a nested field. *)
  Definition vx_field : pexpr := ESel (mk_fieldref (RefDirect (SegField 0 (Some (SegField 5 None)))) RootRef).
  Definition vx_read (f : option pexpr) (extra : bool) (n : nullability) (c : option rel_common) : prel :=
    RRead (mk_read c (Some (mk_named_struct [L "a"] (Some ([px_i64], 0%N, n)))) f (ReadNamed [L "t"]) None extra).
  Definition vx_plan (r : prel) : pplan := mk_plan _ None (to_extension_urns ex_exts) (to_extension_declarations ex_exts) [PRel r].
  Definition vx_hidden : pplan :=
    vx_plan (RFilter (Some (mk_common None true))
      (Some (RAggregate None (Some (vx_read (Some vx_field) true NUnspecified None)) [] []
               [mk_measure (Some (mk_aggfn 13 [] [] (Some px_i64) 2 3)) (Some vx_field); mk_measure None (Some vx_field)] (Some (mk_advext None []))))
      (Some vx_field) None).
  Definition vx_shown : pplan :=
    vx_plan (RFilter direct
      (Some (RAggregate direct (Some (vx_read None false NRequired direct)) [] [mk_grouping [] []]
               [mk_measure (Some (mk_aggfn 13 [] [] (Some px_i64) 0 0)) None] None))
      (Some (ex_field 0)) None).
  Example vx_visible : visible_plan vx_hidden = vx_shown.
  Proof. reflexivity. Qed.

  (** Nothing is reported, and yet the filter, the measure's filter, the nested field
      and the rest are lost. *)
  Theorem C43_silent_loss_refuted : exists p p', p <> p' /\ visible_plan p = p' /\
    o_errs (format (run_regs ex_history) opts_default p) = [] /\ o_toks (format (run_regs ex_history) opts_default p) = [] /\
    parse (run_regs ex_history) (o_text (format (run_regs ex_history) opts_default p)) = Ok p'.
  Proof.
    exists vx_hidden, vx_shown. split; [discriminate|]. split; [reflexivity|].
    split; [vm_compute; reflexivity|]. split; vm_compute; reflexivity.
  Qed.

  (** A missing input is not reported either, and the text cannot be parsed. *)
  Theorem C43_missing_input_refuted : exists p, pl_rels _ p = [PRel (RFilter direct None (Some (ex_field 0)) None)] /\
    o_errs (format (run_regs ex_history) opts_default p) = [] /\ o_toks (format (run_regs ex_history) opts_default p) = [] /\
    exists er, parse (run_regs ex_history) (o_text (format (run_regs ex_history) opts_default p)) = Err er.
  Proof.
    exists (vx_plan (RFilter direct None (Some (ex_field 0)) None)). split; [reflexivity|]. split; [vm_compute; reflexivity|].
    split; [vm_compute; reflexivity|]. eexists. vm_compute. reflexivity.
  Qed.

  Example vx_told_apart : px_plan <> vx_shown /\
    o_text (format (run_regs ex_history) opts_default px_plan) <> o_text (format (run_regs ex_history) opts_default vx_shown).
  Proof. split; [discriminate|]. vm_compute. discriminate. Qed.
End Examples.
