(** Properties of parsing any text: layout, addenda, error locations. *)
From Coq Require Import String List NArith ZArith Bool Lia PeanoNat.
From Verif Require Import Base BaseFacts Peg PegFacts Names SpecNames NamesFacts SimpleExt SimpleExtFacts SpecExt Out Anchors Types SpecTypes Lines SpecLines LinesFacts Tree SpecTree TreeFacts
  Literals SpecLiterals Exprs SpecExprs ExprsFacts ExtArgs Registry Rels RelGrammar SpecRels RelRead RelReadFacts RelTreeFacts SpecAddenda
  ExtLines Structural StructuralFacts LineView ReadFacts BuildFacts ParsedFacts RelayFacts SpecPlan OutClosed RelTextFacts
  SpecVirtual VirtualFacts PlanFacts Plan Props_Structural Props_Exprs Props_Literals SpecRegistry Props_Registry.
Import ListNotations.
Local Open Scope string_scope.
Local Open Scope list_scope.
Local Open Scope nat_scope.
Local Open Scope peg_scope.

(** Results that are the same, or errors that are the same up to their line numbers. *)
Definition alike {X} (a b : res perror X) : Prop :=
  match a, b with
  | Ok x, Ok y => x = y
  | Err d, Err d' => unline d = unline d'
  | Panic m, Panic m' => m = m'
  | _, _ => False
  end.
Lemma norm_alike {X} (a b : res perror X) : norm id a = norm id b -> alike a b.
Proof. destruct a, b; cbn [norm alike]; unfold id; intros H; congruence. Qed.

(** ** C32: layout *)

(** Blank lines, white space at the end of lines and carriage returns do not matter. *)
Theorem C32_parse_layout : forall (F : Floats) reg s s',
  tidied (text_lines s) (text_lines s') -> alike (parse reg s) (parse reg s').
Proof.
  intros F reg s s' H. apply norm_alike. apply C32_layout; [|exact H]. intros e n. apply build_numbers.
Qed.

(** ** C38: layouts of virtual tables *)

Lemma parse_alike `{F : Floats} reg s s' :
  norm (unnumber_parser _ _) (parse_text _ _ read_root read_node (ps_new rline acst) s) =
  norm (unnumber_parser _ _) (parse_text _ _ read_root read_node (ps_new rline acst) s') ->
  alike (parse reg s) (parse reg s').
Proof.
  intros P. apply norm_alike. unfold parse, parse_plan.
  destruct (parse_text _ _ _ _ _ s) as [p|e|x], (parse_text _ _ _ _ _ s') as [p'|e'|x']; cbn [norm rbind] in P |- *; try congruence.
  assert (E : unnumber_parser _ _ p = unnumber_parser _ _ p') by congruence. clear P. unfold build_plan.
  assert (E1 : ps_version _ _ p = ps_version _ _ p') by (unfold unnumber_parser in E; congruence).
  assert (E2 : ps_ext _ _ p = ps_ext _ _ p') by (unfold unnumber_parser in E; congruence).
  assert (E3 : map unnumber (finish (ps_tree _ _ p)) = map unnumber (finish (ps_tree _ _ p'))).
  { rewrite <- !finish_unnumber. f_equal. unfold unnumber_parser in E. congruence. }
  rewrite <- E1, <- E2. apply norm_bind; auto.
  revert E3. generalize (finish (ps_tree _ _ p)), (finish (ps_tree _ _ p')).
  intros f. induction f as [|n f IH]; intros [|n' f'] E3; try discriminate; auto.
  cbn [map] in E3. injection E3 as E4 E5. cbn [rlist].
  apply norm_bind. { now rewrite build_numbers, E4, <- build_numbers. }
  intros a. apply norm_bind; auto.
Qed.

(** The text of a virtual table is the same wherever its lines end. *)
Lemma seen_virtual r : seen (L "Read:Virtual" ++ r).
Proof. apply seen_alpha. eexists _, _. split; reflexivity. Qed.
Lemma virtual_indented args cols t d w : virtual_text args cols t -> forallb is_ws w = true ->
  exists u r, virtual_text args cols u /\ t = L "Read:Virtual" ++ r /\
    indented (spaces (2 * d) ++ t ++ w) = (d, u) /\ blank (spaces (2 * d) ++ t ++ w) = false.
Proof.
  intros [o b a k Ho Hb Ha] Hw. exists (L "Read:Virtual" ++ o ++ b ++ a ++ cols ++ L "]" ++ spaces 0).
  eexists. split; [now constructor|]. split; [reflexivity|]. split.
  - rewrite indented_at by (rewrite <- app_assoc; apply seen_virtual). f_equal.
    rewrite <- !app_assoc. unfold spaces at 2. cbn [repeat]. rewrite app_nil_r.
    replace (L "Read:Virtual" ++ o ++ b ++ a ++ cols ++ L "]" ++ spaces k ++ w)
      with ((L "Read:Virtual" ++ o ++ b ++ a ++ cols ++ L "]") ++ spaces k ++ w) by now rewrite <- !app_assoc.
    unfold trim_end. rewrite trim_end_by_drop.
    + pose proof (trim_bracket (L "Read:Virtual" ++ o ++ b ++ a ++ cols)) as T. rewrite <- !app_assoc in T. exact T.
    + rewrite forallb_app, Hw, andb_true_r. clear. induction k; [reflexivity|]. cbn [spaces repeat forallb]. exact IHk.
  - apply not_blank. rewrite <- app_assoc. apply seen_virtual.
Qed.
Lemma first_line_has p : forall l x y, contains_char c_nl p = false -> l ++ [c_nl] ++ x = p ++ y -> exists r, l = p ++ r.
Proof.
  induction p as [|c p IH]; intros l x y Hp H; [now exists l|]. cbn [contains_char existsb] in Hp. apply orb_false_iff in Hp as [Hc Hp].
  destruct l as [|b l]; cbn [app] in H; injection H as Hh H; [rewrite <- Hh in Hc; discriminate|].
  destruct (IH l x y Hp H) as (r & ->). exists r. now rewrite Hh.
Qed.
Lemma virtual_fresh k d r : group_text k = spaces (2 * d) ++ L "Read:Virtual" ++ r -> line_group k -> fresh_group k.
Proof.
  intros E G. split; [exact G|]. destruct k as [|l k]; [exact G|]. clear G.
  change (group_text (l :: k)) with ((l ++ [c_nl]) ++ group_text k) in E. rewrite <- app_assoc, app_assoc with (l := spaces (2 * d)) in E.
  apply first_line_has in E as (x & ->).
  2: { rewrite contains_char_app, spaces_nl. reflexivity. }
  rewrite <- app_assoc. split.
  - unfold continuation. rewrite indented_at by apply seen_virtual. cbn [snd]. unfold trim_end.
    destruct (trim_end_by is_ws (L "Read:Virtual" ++ x)) as [|c v] eqn:Ex; [reflexivity|].
    destruct (trim_end_by_split is_ws (L "Read:Virtual" ++ x)) as (w & Ew & _). rewrite Ex in Ew. injection Ew as <- _.
    apply (starts_differ 45 (L " ")). discriminate.
  - destruct (2 * d); apply (starts_differ 61 (L "==")); discriminate.
Qed.

(** A virtual table may be laid out in any of the ways of SpecVirtual.v at its place
    in a text: the result is the same. *)
Theorem C38_virtual_layouts : forall (U : Unicode) (F : Floats) reg op e rows f cols t t' d w w' k k' before after s s',
  ascii_sane U -> wf_exts e -> op_anchors op <> VNever -> types_written op ->
  Forall (Forall (fun x => expr_ok e x = true)) rows -> optional (fun x => expr_ok e x = true) f ->
  Forall (fun c => name_ok (fst c) /\ type_ok e (snd c) = true) cols ->
  let layout := virtual_text (virtual_args U F op e rows f) (join (L ", ") (map (coltext U op e) cols)) in
  layout t -> layout t' -> forallb is_ws w = true -> forallb is_ws w' = true ->
  group_text k = spaces (2 * d) ++ t ++ w -> group_text k' = spaces (2 * d) ++ t' ++ w' -> line_group k -> line_group k' ->
  (exists h, In h before /\ trim_end h = L "=== Plan") -> starts_fresh after = true ->
  text_lines s = before ++ k ++ after -> text_lines s' = before ++ k' ++ after ->
  alike (parse reg s) (parse reg s').
Proof.
  intros U F reg op e rows f cols t t' d w w' k k' before after s s' Ha W Hanc Htyp Hr Hf Hc layout Ht Ht' Hw Hw' Ek Ek' Gk Gk' Hh Hfresh E E'.
  destruct (virtual_read U F Ha op e W Hanc Htyp rows f cols Hr Hf Hc) as (y & _ & Gy).
  apply parse_alike.
  assert (K : forall t w k, layout t -> forallb is_ws w = true -> group_text k = spaces (2 * d) ++ t ++ w -> line_group k ->
    fresh_group k /\ blank (group_text k) = false /\ fst (indented (group_text k)) = d /\
    read_root (snd (indented (group_text k))) = Ok (inl y) /\ read_node (snd (indented (group_text k))) = Ok (inl y)).
  { clear - Gy. intros t w k Ht Hw Ek Gk. destruct (virtual_indented _ _ t d w Ht Hw) as (u & r & Hu & Et & Ei & Eb).
    destruct (Gy u Hu) as [G1 G2]. split; [|rewrite Ek, Ei; cbn [fst snd]; split; [exact Eb|split; [reflexivity|]]].
    - apply (virtual_fresh k d (r ++ w)); [|exact Gk]. rewrite Ek, Et. now rewrite <- !app_assoc.
    - assert (E1 : g_node u = Some (@inl rline acst y, [])) by (apply palt_l, pmap_some; exact G1).
      unfold read_root, read_node, g_top. rewrite (palt_r _ _ _ _ (pmap_none inl _ _ G2) E1), E1. split; reflexivity. }
  destruct (K t w k Ht Hw Ek Gk) as (K1 & K2 & K3 & K4 & K5). destruct (K t' w' k' Ht' Hw' Ek' Gk') as (K1' & K2' & K3' & K4' & K5').
  apply (same_group_same _ _ _ _ before k k' after); auto. unfold same_group. rewrite K3, K3', K4, K4', K5, K5'. auto.
Qed.

(** ** C17: addenda of relations *)

Lemma lower_addenda_kinds `{F : Floats} e ads invs : rlist (lower_addendum e) ads = Ok invs ->
  Forall2 (fun a i => match fst a with Acst k n args =>
    k = ai_kind i /\ @lower_name perr n = Ok (ai_name i) /\ lower_xargs e args = Ok (ai_args i) end) ads invs.
Proof.
  intros H. apply rlist_ok_inv in H. eapply Forall2_imp; [|exact H]. clear. intros [[k n args] m] i H. cbn [lower_addendum fst] in *.
  apply lift_plan_ok in H. apply rbind_ok in H as (n' & Hn & H). apply rbind_ok in H as (a & Ha & H). injection H as <-. auto.
Qed.

Section Addenda.
  Context `{F : Floats}.
  Variable reg : registry.
  Variable e : exts.

  Definition inv_detail (i : ainv) (d : any) : Prop := parse_with_type reg (ai_kind i) (ai_name i) (ai_args i) = Ok d.
  Definition inv_kind (k : xtype) (i : ainv) : bool := xtype_eqb (ai_kind i) k.
  Lemma resolve_detail i d : resolve_addendum reg i = Ok d -> inv_detail i d.
  Proof.
    unfold resolve_addendum, resolve, inv_detail. destruct (parse_with_type _ _ _ _) as [x|[]|]; try discriminate. now intros [= ->].
  Qed.
  Lemma standard_loop_ok l : forall enh opts x, standard_loop reg l enh opts = Ok x -> exists enh' opts',
    opt_list (fst x) = opt_list enh ++ enh' /\ snd x = opts ++ opts' /\
    Forall2 inv_detail (filter (inv_kind XtEnhancement) l) enh' /\ Forall2 inv_detail (filter (inv_kind XtOptimization) l) opts' /\
    filter (inv_kind XtTable) l = [] /\ filter (inv_kind XtRelation) l = [].
  Proof.
    induction l as [|a l IH]; intros enh opts x H; cbn [standard_loop] in H.
    - injection H as <-. exists [], []. cbn [fst snd filter]. rewrite !app_nil_r. repeat split; constructor.
    - assert (K : forall k, inv_kind k a = xtype_eqb (ai_kind a) k) by reflexivity. cbn [filter]. rewrite !K.
      destruct (ai_kind a) eqn:Ek; try discriminate; cbn [xtype_eqb].
      + destruct enh as [|]; [discriminate|]. apply rbind_ok in H as (d & Hd & H). apply IH in H as (enh' & opts' & H1 & H2 & H3 & H4 & H5 & H6).
        exists (d :: enh'), opts'. cbn [opt_list app] in *. repeat split; auto. constructor; auto. now apply resolve_detail.
      + apply rbind_ok in H as (d & Hd & H). apply IH in H as (enh' & opts' & H1 & H2 & H3 & H4 & H5 & H6).
        exists enh', (d :: opts'). rewrite <- app_assoc in H2. repeat split; auto. constructor; auto. now apply resolve_detail.
  Qed.
  Definition adv_enh (a : option advext) : list any := match a with Some a => opt_list (ae_enhancement a) | None => [] end.
  Definition adv_opts (a : option advext) : list any := match a with Some a => ae_optimizations a | None => [] end.
  Lemma standard_addenda_ok l adv : standard_addenda reg l = Ok adv ->
    Forall2 inv_detail (filter (inv_kind XtEnhancement) l) (adv_enh adv) /\
    Forall2 inv_detail (filter (inv_kind XtOptimization) l) (adv_opts adv) /\
    filter (inv_kind XtTable) l = [] /\ filter (inv_kind XtRelation) l = [].
  Proof.
    unfold standard_addenda. intros H. apply rbind_ok in H as ([enh opts] & Hl & H).
    apply standard_loop_ok in Hl as (enh' & opts' & E1 & E2 & H1 & H2 & H3 & H4). cbn [fst snd opt_list app] in *. subst.
    assert (adv_enh adv = opt_list enh /\ adv_opts adv = opts') as [-> ->].
    { destruct enh as [d|], opts'; injection H as <-; split; reflexivity. }
    auto.
  Qed.
  Lemma filter_filter {X} (f g : X -> bool) l : (forall x, f x = true -> g x = true) -> filter f (filter g l) = filter f l.
  Proof.
    intros H. induction l as [|x l IH]; [reflexivity|]. cbn [filter]. destruct (g x) eqn:Eg; cbn [filter].
    - destruct (f x); now rewrite IH.
    - destruct (f x) eqn:Ef; [rewrite (H x Ef) in Eg; discriminate|exact IH].
  Qed.
  Lemma extension_addenda_ok line l d adv : extension_read_addenda reg line l = Ok (d, adv) ->
    Forall2 inv_detail (filter (inv_kind XtEnhancement) l) (adv_enh adv) /\
    Forall2 inv_detail (filter (inv_kind XtOptimization) l) (adv_opts adv) /\
    Forall2 inv_detail (filter (inv_kind XtTable) l) [d] /\ filter (inv_kind XtRelation) l = [].
  Proof.
    unfold extension_read_addenda. intros H. change is_table with (inv_kind XtTable) in H.
    destruct (filter (inv_kind XtTable) l) as [|a [|b r]] eqn:Et; try discriminate.
    apply rbind_ok in H as (d' & Hd & H). apply rbind_ok in H as (adv' & Ha & H). injection H as <- <-.
    apply standard_addenda_ok in Ha as (H1 & H2 & _ & H4).
    assert (K : forall k, k <> XtTable -> filter (inv_kind k) (filter (fun a => negb (inv_kind XtTable a)) l) = filter (inv_kind k) l).
    { intros k Hk. apply filter_filter. intros x. unfold inv_kind. destruct (ai_kind x), k; try discriminate; auto; congruence. }
    rewrite K in H1, H2, H4 by discriminate. repeat split; auto. constructor; [now apply resolve_detail|constructor].
  Qed.

  Lemma lower_rel_adv y cs adv r w : lower_rel e y cs adv = Ok (r, w) -> rel_adv r = adv /\ rel_table r = [].
  Proof.
    intros H. destruct y; cbn [lower_rel] in H; try discriminate.
    - destruct cs; [|discriminate]. apply rbind_ok in H as (? & _ & H). apply rbind_ok in H as ([[? ?] ?] & _ & H). injection H as <- _. split; reflexivity.
    - destruct cs; [|discriminate]. repeat (apply rbind_ok in H as (? & _ & H)). injection H as <- _. split; reflexivity.
    - repeat (apply rbind_ok in H as (? & _ & H)). injection H as <- _. split; reflexivity.
    - repeat (apply rbind_ok in H as (? & _ & H)). injection H as <- _. split; reflexivity.
    - repeat (apply rbind_ok in H as (? & _ & H)). destruct (build_grouping_fields _). apply rbind_ok in H as (? & _ & H).
      injection H as <- _. split; reflexivity.
    - repeat (apply rbind_ok in H as (? & _ & H)). injection H as <- _. split; reflexivity.
    - repeat (apply rbind_ok in H as (? & _ & H)). injection H as <- _. split; reflexivity.
    - repeat (apply rbind_ok in H as (? & _ & H)). injection H as <- _. split; reflexivity.
    - destruct cs as [|c [|d cs]]; try discriminate. destruct (forallb _ _); [|discriminate].
      repeat (apply rbind_ok in H as (? & _ & H)). injection H as <- _. split; reflexivity.
    - repeat (apply rbind_ok in H as (? & _ & H)). injection H as <- _. split; reflexivity.
  Qed.
  Lemma parse_relation_addenda y line l cs r w : parse_relation reg e y line l cs = Ok (r, w) ->
    Forall2 inv_detail (filter (inv_kind XtEnhancement) l) (rel_enhancement r) /\
    Forall2 inv_detail (filter (inv_kind XtOptimization) l) (rel_optimizations r) /\
    Forall2 inv_detail (filter (inv_kind XtTable) l) (rel_table r) /\ filter (inv_kind XtRelation) l = [].
  Proof.
    assert (G : (let? adv := standard_addenda reg l in lift_plan line (lower_rel e y cs adv)) = Ok (r, w) ->
      Forall2 inv_detail (filter (inv_kind XtEnhancement) l) (rel_enhancement r) /\
      Forall2 inv_detail (filter (inv_kind XtOptimization) l) (rel_optimizations r) /\
      Forall2 inv_detail (filter (inv_kind XtTable) l) (rel_table r) /\ filter (inv_kind XtRelation) l = []).
    { intros H. apply rbind_ok in H as (adv & Ha & H). apply lift_plan_ok in H. apply lower_rel_adv in H as [E1 E2].
      apply standard_addenda_ok in Ha as (H1 & H2 & H3 & H4). unfold rel_enhancement, rel_optimizations. rewrite E1, E2, H3.
      repeat split; auto. }
    unfold parse_relation. destruct y; try exact G; intros H; clear G.
    - apply rbind_ok in H as ([d adv] & Ha & H). apply lift_plan_ok in H. destruct cs; [|discriminate].
      apply rbind_ok in H as (cols' & _ & H). injection H as <- _. now apply extension_addenda_ok in Ha.
    - destruct l; [|discriminate]. apply rbind_ok in H as (a & _ & H). destruct (child_count_ok _ _); [|discriminate].
      apply rbind_ok in H as (d & _ & H). injection H as <- _. cbn [filter]. unfold rel_enhancement, rel_optimizations, rel_table.
      destruct k; cbn [create_rel rel_adv]; repeat split; constructor.
  Qed.
  Lemma own_addenda_of ads invs r : rlist (lower_addendum e) ads = Ok invs ->
    Forall2 inv_detail (filter (inv_kind XtEnhancement) invs) (rel_enhancement r) /\
    Forall2 inv_detail (filter (inv_kind XtOptimization) invs) (rel_optimizations r) /\
    Forall2 inv_detail (filter (inv_kind XtTable) invs) (rel_table r) /\ filter (inv_kind XtRelation) invs = [] ->
    own_addenda reg e ads r.
  Proof.
    intros H. apply lower_addenda_kinds in H.
    assert (K : forall k ds, Forall2 inv_detail (filter (inv_kind k) invs) ds -> Forall2 (addendum_detail reg e) (filter (addendum_kind k) ads) ds).
    { intros k. induction H as [|a i ads invs Ha _ IH]; intros ds; cbn [filter]; [intros D; inversion D; constructor|].
      replace (addendum_kind k a) with (match fst a with Acst k' _ _ => xtype_eqb k' k end) by reflexivity.
      replace (inv_kind k i) with (xtype_eqb (ai_kind i) k) by reflexivity. destruct (fst a) as [k' n args] eqn:Ea. destruct Ha as (-> & Hn & Hx).
      destruct (xtype_eqb (ai_kind i) k); [|apply IH]. intros D. inversion D as [|? d ? ds' Hd D']; subst.
      constructor; [|now apply IH]. unfold addendum_detail. rewrite Ea. exists (ai_name i), (ai_args i). auto. }
    intros (H1 & H2 & H3 & H4). unfold own_addenda. repeat split; auto.
    assert (N : Forall2 inv_detail (filter (inv_kind XtRelation) invs) []) by (rewrite H4; constructor).
    apply K in N. now inversion N.
  Qed.
  Lemma build_rel_addenda n : forall r w, build_rel reg e n = Ok (r, w) -> addenda_kept reg e n r.
  Proof.
    induction n as [y line ads cs IH] using rnode_ind2. intros r w H. cbn [build_rel] in H.
    apply rbind_ok in H as (l & Hl & H). apply rbind_ok in H as (invs & Hi & H).
    destruct (parse_relation_inputs _ _ _ _ _ _ _ _ H) as [Ei _]. constructor.
    - apply (own_addenda_of ads invs); [exact Hi|]. now apply parse_relation_addenda in H.
    - rewrite Ei. apply rlist_ok_inv in Hl. clear - IH Hl.
      induction Hl as [|c [r w] cs l Hc Hl IHl]; constructor; inversion IH; subst; cbn; eauto.
  Qed.
End Addenda.

(** The addenda of every relation of an accepted text are kept: at most one
    enhancement, all optimizations in order, the table of an extension read, and
    nothing else is accepted. *)
Theorem C17_addenda_kept : forall (F : Floats) reg s p,
  parse reg s = Ok p ->
  exists ps, parse_text rline acst read_root read_node (ps_new _ _) s = Ok ps /\
    Forall2 (plan_addenda_kept reg (xp_exts (ps_ext _ _ ps))) (finish (ps_tree _ _ ps)) (pl_rels _ p).
Proof.
  intros F reg s p H. unfold parse, parse_plan in H. apply rbind_ok in H as (ps & Hps & H). exists ps. split; auto.
  unfold build_plan in H. apply rbind_ok in H as (rels & Hr & H). injection H as <-. cbn [pl_rels].
  apply rlist_ok_inv in Hr. eapply Forall2_imp; [|exact Hr]. generalize (xp_exts (ps_ext rline acst ps)). clear. intros e [y line ads cs] q H.
  assert (Ho : (let? p := build_rel reg e (RNode y line ads cs) in Ok (PRel (fst p))) = Ok q ->
            Forall2 (addenda_kept reg e) [RNode y line ads cs] (plan_inputs q)).
  { intros Hb. apply rbind_ok in Hb as ([i w] & Hi & Hb). injection Hb as <-. constructor; [|constructor].
    eapply build_rel_addenda; eauto. }
  destruct y; try (now apply Ho).
  cbn [build_plan_rel] in H. destruct ads as [|[a l] ads]; [|discriminate].
  apply rbind_ok in H as (ns & Hn & H). destruct cs as [|c [|c' cs]]; try discriminate.
  apply rbind_ok in H as ([i w] & Hi & H). injection H as <-. split; [reflexivity|]. constructor; [|constructor]. eapply build_rel_addenda; eauto.
Qed.

(** ** C37: error locations *)

Lemma rlist_err {X Y} (f : X -> res perror Y) l d : rlist f l = Err d -> exists x, In x l /\ f x = Err d.
Proof.
  induction l as [|x l IH]; cbn [rlist]; intros H; [discriminate|]. apply rbind_err in H as [H|(y & _ & H)].
  - exists x. split; [now left|exact H].
  - apply rbind_err in H as [H|(ys & _ & H)]; [|discriminate]. destruct (IH H) as (z & Hz & E). exists z. split; [now right|exact E].
Qed.
Lemma lift_plan_err {X} n (x : pres X) d : lift_plan n x = Err d -> error_line d = n.
Proof. destruct x; cbn; try discriminate. now intros [= <-]. Qed.

Section Errors.
  Context `{F : Floats}.
  Variable reg : registry.
  Variable e : exts.

  Lemma resolve_err t n name args d : resolve reg t n name args = Err d -> error_line d = n.
  Proof. unfold resolve. destruct (parse_with_type _ _ _ _) as [|[]|]; try discriminate; now intros [= <-]. Qed.
  Lemma standard_loop_err l : forall enh opts d, standard_loop reg l enh opts = Err d -> In (error_line d) (map ai_line l).
  Proof.
    induction l as [|a l IH]; intros enh opts d H; [discriminate|]. cbn [standard_loop map In] in *.
    destruct (ai_kind a); [left; now injection H as <-..| |].
    - destruct enh as [|]; [left; now injection H as <-|]. apply rbind_err in H as [H|(x & _ & H)]; [left; symmetry; now apply resolve_err in H|eauto].
    - apply rbind_err in H as [H|(x & _ & H)]; [left; symmetry; now apply resolve_err in H|eauto].
  Qed.
  Lemma standard_addenda_err l d : standard_addenda reg l = Err d -> In (error_line d) (map ai_line l).
  Proof.
    unfold standard_addenda. intros H. apply rbind_err in H as [H|([[x|] [|y r]] & _ & H)]; try discriminate. now apply standard_loop_err in H.
  Qed.
  Lemma extension_addenda_err n l d : extension_read_addenda reg n l = Err d -> error_line d = n \/ In (error_line d) (map ai_line l).
  Proof.
    unfold extension_read_addenda. intros H.
    assert (I : forall a, In a (filter is_table l) -> In (ai_line a) (map ai_line l)).
    { intros a Ha. apply filter_In in Ha as [Ha _]. now apply in_map. }
    destruct (filter is_table l) as [|a [|b r]] eqn:Et.
    - injection H as <-. now left.
    - right. apply rbind_err in H as [H|(x & _ & H)].
      + apply resolve_err in H. rewrite H. apply I. now left.
      + apply rbind_err in H as [H|(x' & _ & H)]; [|discriminate]. apply standard_addenda_err in H.
        apply in_map_iff in H as (y & <- & Hy). apply filter_In in Hy as [Hy _]. now apply in_map.
    - injection H as <-. right. apply I. right. now left.
  Qed.
  Lemma parse_relation_err y n l cs d : parse_relation reg e y n l cs = Err d -> error_line d = n \/ In (error_line d) (map ai_line l).
  Proof.
    assert (G : (let? adv := standard_addenda reg l in lift_plan n (lower_rel e y cs adv)) = Err d -> error_line d = n \/ In (error_line d) (map ai_line l)).
    { intros H. apply rbind_err in H as [H|(x & _ & H)]; [right; now apply standard_addenda_err|left; now apply lift_plan_err in H]. }
    unfold parse_relation. destruct y; try exact G; intros H; clear G.
    - apply rbind_err in H as [H|(x & _ & H)]; [now apply extension_addenda_err in H|left; now apply lift_plan_err in H].
    - destruct l as [|a l]; [|right; injection H as <-; now left]. left. apply rbind_err in H as [H|(x & _ & H)]; [now apply lift_plan_err in H|].
      destruct (child_count_ok _ _); [|now injection H as <-]. apply rbind_err in H as [H|(z & _ & H)]; [|discriminate]. now apply resolve_err in H.
  Qed.
  Lemma lower_addendum_line a i : lower_addendum e a = Ok i -> ai_line i = snd a.
  Proof.
    destruct a as [[k n args] m]. cbn [lower_addendum]. intros H. apply lift_plan_ok in H.
    apply rbind_ok in H as (? & _ & H). apply rbind_ok in H as (? & _ & H). now injection H as <-.
  Qed.
  (** An error in a tree is the error of one of its lines, below which all relations
      were built. *)
  Definition own_error (n : rnode rline acst) (d : perror) : Prop :=
    let '(RNode y line ads cs) := n in
    Forall (fun c => exists v, build_rel reg e c = Ok v) cs /\ (error_line d = line \/ In (error_line d) (map snd ads)).
  Lemma build_rel_err n : forall d, build_rel reg e n = Err d -> exists m, subnode m n /\ build_rel reg e m = Err d /\ own_error m d.
  Proof.
    induction n as [y line ads cs IH] using rnode_ind2. intros d H. pose proof H as H0. cbn [build_rel] in H.
    apply rbind_err in H as [H|(l & Hl & H)].
    - apply rlist_err in H as (c & Hc & H). rewrite Forall_forall in IH. destruct (IH c Hc d H) as (m & Hm & E). exists m. split; [|exact E].
      econstructor; eauto.
    - exists (RNode y line ads cs). split; [constructor|]. split; [exact H0|]. split.
      { apply rlist_ok_inv in Hl. clear - Hl. induction Hl; constructor; eauto. }
      apply rbind_err in H as [H|(invs & Hi & H)].
      + right. apply rlist_err in H as ([[k nm args] m] & Ha & H). cbn [lower_addendum] in H. apply lift_plan_err in H. rewrite H.
        apply in_map_iff. eexists. split; [|exact Ha]. reflexivity.
      + apply parse_relation_err in H. replace (map snd ads) with (map ai_line invs); [exact H|].
        apply rlist_ok_inv in Hi. clear - Hi. induction Hi as [|a i ads invs Ha _ IH]; [reflexivity|]. cbn [map]. now rewrite (lower_addendum_line a i Ha), IH.
  Qed.
  Lemma build_plan_rel_err n d : build_plan_rel reg e n = Err d ->
    exists y line ads cs, subnode (RNode y line ads cs) n /\ (error_line d = line \/ In (error_line d) (map snd ads)).
  Proof.
    intros H. assert (G : (let? p := build_rel reg e n in Ok (PRel (fst p))) = Err d ->
      exists y line ads cs, subnode (RNode y line ads cs) n /\ (error_line d = line \/ In (error_line d) (map snd ads))).
    { intros G. apply rbind_err in G as [G|(x & _ & G)]; [|discriminate]. destruct (build_rel_err n d G) as ([y line ads cs] & H1 & _ & _ & H2). eauto 8. }
    destruct n as [y line ads cs]. destruct y; try (now apply G). clear G. cbn [build_plan_rel] in H.
    destruct ads as [|[a l] ads].
    - apply rbind_err in H as [H|(ns & _ & H)].
      + apply lift_plan_err in H. eexists _, _, _, _. split; [constructor|]. now left.
      + destruct cs as [|c [|c' cs]]; try (injection H as <-; eexists _, _, _, _; split; [constructor|now left]).
        apply rbind_err in H as [H|(x & _ & H)]; [|discriminate]. destruct (build_rel_err c d H) as ([y' l' ads' cs'] & H1 & _ & _ & H2).
        eexists _, _, _, _. split; [|exact H2]. econstructor; [|exact H1]. now left.
    - injection H as <-. eexists _, _, _, _. split; [constructor|]. right. now left.
  Qed.
End Errors.

(** Line [m] of the text is the first of a group that is not blank. *)
Definition written_at (s : list N) (m : N) : Prop :=
  exists before k after, text_lines s = before ++ k ++ after /\ line_group k /\ blank (group_text k) = false /\
    m = N.of_nat (S (length before)).

Lemma group_at n ks m k : In (m, k) (filter written (number_groups n ks)) ->
  exists b a, concat ks = b ++ k ++ a /\ m = (n + N.of_nat (length b))%N /\ In k ks /\ blank (group_text k) = false.
Proof.
  intros H. apply filter_In in H as [H W]. unfold written in W. apply negb_true_iff in W. cbn [snd] in W.
  revert n H. induction ks as [|x ks IH]; intros n H; [contradiction|]. cbn [number_groups] in H. destruct H as [[= <- <-]|H].
  - exists [], (concat ks). split; [reflexivity|]. split; [cbn; lia|]. split; [now left|exact W].
  - destruct (IH _ H) as (b & a & E & Em & Hi & _). exists (x ++ b), a. cbn [concat]. rewrite E, <- app_assoc. split; [reflexivity|].
    split; [rewrite app_length; lia|]. split; [now right|exact W].
Qed.
Definition lnode_line {R A} (x : lnode R A) : N := match x with LRel _ n | LAdd _ n => n end.
Lemma subnode_flatten {R A} y line (ads : list (A * N)) cs (n : rnode R A) : subnode (RNode y line ads cs) n -> forall d m,
  (m = line \/ In m (map snd ads)) -> exists x, In x (flatten d n) /\ lnode_line (snd x) = m.
Proof.
  intros H. remember (RNode y line ads cs) as q eqn:Eq. induction H as [|r l ads' cs' c Hin H IH]; intros d m Hm; subst.
  - cbn [flatten]. destruct Hm as [->|Hm].
    + eexists. split; [now left|]. reflexivity.
    + apply in_map_iff in Hm as (a & <- & Ha). exists (S d, LAdd (fst a) (snd a)). split; [|reflexivity].
      right. apply in_or_app. left. apply in_map_iff. eexists. split; [reflexivity|exact Ha].
  - destruct (IH (S d) m Hm) as (x & Hx & E). exists x. split; [|exact E]. cbn [flatten]. right. apply in_or_app. right.
    apply in_concat. eexists. split; [|exact Hx]. now apply in_map.
Qed.
Lemma Forall2_in_r {X Y} (P : X -> Y -> Prop) l l' y : Forall2 P l l' -> In y l' -> exists x, In x l /\ P x y.
Proof.
  induction 1 as [|a b l l' Hab _ IH]; intros H; [contradiction|]. destruct H as [->|H].
  - exists a. split; [now left|exact Hab].
  - destruct (IH H) as (x & Hx & Hp). exists x. split; [now right|exact Hp].
Qed.

(** Every number in the tree of an accepted text is that of a line of the text. *)
Lemma tree_numbers R A root node s p n y line ads cs m : parse_text R A root node (ps_new R A) s = Ok p ->
  In n (finish (ps_tree _ _ p)) -> subnode (RNode y line ads cs) n -> m = line \/ In m (map snd ads) -> written_at s m.
Proof.
  intros H Hn Hs Hm. destruct (accepted_shape R A root node s p H) as [[_ E]|(_ & before & h & ks & E & _ & Hg & Hr)].
  { rewrite E in Hn. contradiction. }
  destruct (subnode_flatten _ _ _ _ _ Hs 0 m Hm) as (x & Hx & Em).
  assert (Hin : In x (flatten_all (finish (ps_tree _ _ p)))).
  { unfold flatten_all. apply in_concat. eexists. split; [|exact Hx]. now apply in_map. }
  destruct (Forall2_in_r _ _ _ _ Hr Hin) as ([i k] & Hk & _ & z & _ & Hz). cbn [fst snd] in *.
  destruct (group_at _ _ _ _ Hk) as (b & a & Ec & Ei & Hik & Hb). exists (before ++ h :: b), k, a.
  split; [rewrite E, Ec, <- app_assoc; reflexivity|]. split; [rewrite Forall_forall in Hg; auto|]. split; [exact Hb|].
  rewrite app_length. cbn [length]. rewrite <- Em. destruct x as [dx lx]. cbn [snd] in *. destruct z; subst lx; cbn [lnode_line]; lia.
Qed.

Section Texts.
  Variables R A : Type.
  Variable root : list N -> pres (R + A).
  Variable node : list N -> pres (R + A).
  Notation parser := (Structural.parser R A).
  Notation in_plan := (Structural.in_plan R A).
  Notation prest := (StructuralFacts.prest R A root node).
  Notation step := (StructuralFacts.step R A root node).

  Lemma step_initial p n l p' : step p n l = Ok p' -> ps_state _ _ p' = SInitial -> ps_state _ _ p = SInitial /\ blank l = true.
  Proof.
    unfold StructuralFacts.step. destruct (blank l) eqn:B; [intros [= ->]; auto|]. unfold Structural.parse_line.
    destruct (indented l) as [i t] eqn:Ei. destruct (match i with 0 => starts_with (L "===") t | _ => false end).
    - intros H Hs. apply rbind_ok in H as (nv & _ & H). destruct (Nat.leb_spec (section_rank (fst nv)) (section_rank (ps_state R A p))); [discriminate|].
      injection H as <-. cbn [ps_state] in Hs. rewrite Hs in *. cbn in *. lia.
    - destruct (ps_state R A p) eqn:Es.
      + destruct i; [|discriminate]. destruct (trim t) eqn:Et; [|discriminate]. intros _ _. exfalso.
        assert (blank l = true); [|congruence]. rewrite <- (app_nil_r l). apply trim_nil in Et.
        unfold indented in Ei. injection Ei as E1 E2. subst t. rewrite app_nil_r.
        destruct (trim_end_by_split is_ws l) as (w & Ew & Hw). rewrite Ew. unfold blank. rewrite forallb_app, Hw, andb_true_r.
        rewrite E1 in Et. cbn [Nat.mul skipn] in Et. exact Et.
      + destruct i as [|[|i]]; [destruct (trim t); [|discriminate]| |discriminate].
        * intros [= <-]. congruence.
        * intros H. apply rbind_ok in H as (v & _ & H). injection H as <-. discriminate.
      + intros H. apply rbind_ok in H as (v & _ & H). injection H as <-. discriminate.
      + intros H. apply rbind_ok in H as (v & _ & H). apply rbind_ok in H as (v' & _ & H). injection H as <-. discriminate.
  Qed.

  Lemma prest_err_lines k : forall p n s d, length (text_lines s) <= k -> prest p n s = Err d ->
    exists before g after p', text_lines s = before ++ g ++ after /\ line_group g /\ blank (group_text g) = false /\
      parse_line R A root node p' (n + N.of_nat (length before)) (group_text g) = Err d /\
      (ps_state _ _ p' = SInitial -> ps_state _ _ p = SInitial /\ Forall (fun l => blank l = true) before /\ exists l, g = [l]).
  Proof.
    induction k as [|k IH]; intros p n s d Hk H; (destruct (text_lines s) as [|l ls] eqn:E;
      [apply first_line_nil in E; subst; rewrite prest_nil in H; discriminate|]); cbn [length] in Hk; [lia|].
    destruct (prest_lines R A root node p n s l ls E) as (rest & Hr & _ & Er). rewrite Er in H. clear Er.
    pose proof (chunk_app (in_plan p) l ls) as Ha. pose proof (chunk_group (in_plan p) l ls) as Hg.
    assert (Hi : ps_state _ _ p = SInitial -> lines_chunk (in_plan p) l ls = ([], ls)).
    { intros Hs. unfold lines_chunk, Structural.in_plan. now rewrite Hs. }
    set (c := lines_chunk (in_plan p) l ls) in *.
    apply rbind_err in H as [H|(p1 & H1 & H2)].
    - exists [], (l :: fst c), (snd c), p. split; [now rewrite <- Ha|]. split; [exact Hg|].
      change (unl (l :: fst c)) with (group_text (l :: fst c)) in H. unfold StructuralFacts.step in H.
      destruct (blank (group_text (l :: fst c))); [discriminate|]. split; [reflexivity|]. split; [cbn [length]; now rewrite N.add_0_r|].
      intros Hs. split; [exact Hs|]. split; [constructor|]. exists l. now rewrite (Hi Hs).
    - destruct (fun Hle => IH p1 _ rest d Hle H2) as (b & g & a & p' & E1 & E2 & E3 & E4 & E5).
      { rewrite Hr. apply (f_equal (@length _)) in Ha. rewrite app_length in Ha. cbn [length] in Ha. lia. }
      exists ((l :: fst c) ++ b), g, a, p'. split; [rewrite <- Ha, <- app_assoc, <- Hr, E1; reflexivity|]. split; [exact E2|]. split; [exact E3|].
      split; [rewrite <- E4; f_equal; rewrite app_length; cbn [length]; lia|].
      intros Hs. destruct (E5 Hs) as (S1 & S2 & S3). destruct (step_initial _ _ _ _ H1 S1) as [S4 S5]. split; [exact S4|]. split; [|exact S3].
      rewrite (Hi S4) in *. cbn [fst app] in *. constructor; [|exact S2].
      cbn [unl map concat] in S5. rewrite app_nil_r in S5. unfold blank in *. rewrite forallb_app in S5. now apply andb_true_iff in S5.
  Qed.
End Texts.

(** The line of an error is that of a line of the text, at which the parser was or
    from which it made a relation; in front of the first section it is the
    indentation of the offending line. *)
Theorem C37_parse_error_line : forall (F : Floats) reg s d, parse reg s = Err d ->
  written_at s (error_line d) \/
  exists before l after, text_lines s = before ++ l :: after /\ Forall (fun l => blank l = true) before /\
    blank l = false /\ starts_with (L "===") l = false /\ d = EInitial (N.of_nat (fst (indented l))).
Proof.
  intros F reg s d H. unfold parse, parse_plan in H. apply rbind_err in H as [H|(ps & Hps & H)].
  - change (prest rline acst read_root read_node (ps_new _ _) 1 s = Err d) in H.
    destruct (prest_err_lines _ _ _ _ _ _ _ _ _ (le_n _) H) as (b & g & a & p' & E1 & E2 & E3 & E4 & E5).
    destruct (parse_line_err _ _ _ _ _ _ _ _ E4) as [El|(Hs & Hh & El)].
    + left. exists b, g, a. split; [exact E1|]. split; [exact E2|]. split; [exact E3|]. lia.
    + right. destruct (E5 Hs) as (_ & Hb & l & ->). exists b, l, a. split; [exact E1|]. split; [exact Hb|].
      change (group_text [l]) with ((l ++ [10%N]) ++ []) in *. rewrite app_nil_r in *.
      unfold blank in *. rewrite forallb_app in E3. cbn [forallb] in E3. rewrite andb_true_r in E3.
      split; [exact E3|]. split.
      { destruct (starts_with (L "===") l) eqn:Es; [|reflexivity]. unfold starts_with in *. destruct (strip_prefix (L "===") l) as [r|] eqn:Er; [|discriminate].
        apply strip_prefix_spec in Er. rewrite Er, <- app_assoc, strip_prefix_app in Hh. discriminate. }
      rewrite indented_drop in El by reflexivity. exact El.
  - left. unfold build_plan in H. apply rbind_err in H as [H|(rels & _ & H)]; [|discriminate].
    apply rlist_err in H as (n & Hn & H). apply build_plan_rel_err in H as (y & line & ads & cs & Hs & Hm).
    eapply tree_numbers; eauto.
Qed.
(** An error while relations are built belongs to one relation of the tree: all
    relations below it were built, and it is reported at its own line or at the line
    of one of its addenda. *)
Theorem C37_relation_error : forall (F : Floats) reg e n d, build_rel reg e n = Err d ->
  exists y line ads cs, subnode (RNode y line ads cs) n /\ build_rel reg e (RNode y line ads cs) = Err d /\
    (forall c, In c cs -> exists v, build_rel reg e c = Ok v) /\
    (error_line d = line \/ In (error_line d) (map snd ads)).
Proof.
  intros F reg e n d H. destruct (build_rel_err reg e n d H) as ([y line ads cs] & H1 & H2 & H3 & H4).
  exists y, line, ads, cs. rewrite Forall_forall in H3. auto.
Qed.

(** ** Examples *)

Section Examples.
  #[local] Existing Instance ascii_tables.
  #[local] Existing Instance toy_floats.
  Definition pp_text (ls : list string) : list N := concat (map (fun l => L l ++ [10%N]) ls).
  (** The same lines ended by a carriage return. *)
  Definition pp_returns (ls : list string) : list N := concat (map (fun l => L l ++ [13; 10]%N) ls).
  Definition pp_reg : registry := run_regs
    [(XtRelation, ex_handler "Scan" "u/1"); (XtTable, ex_handler "Tab" "u/2"); (XtEnhancement, ex_handler "Hint" "u/3");
     (XtOptimization, ex_handler "Opt" "u/4")].

  (** C32: white space at the ends of lines and blank lines. *)
  Example C32_example :
    let s := pp_text ["=== Plan"; "Root[a]"; "  Filter[$0 => $0]"; "    Read:Virtual["; "      - (1)"; "      - => a:i64]"] in
    let s' := pp_text ["=== Plan  "; ""; "Root[a] "; "   "; "  Filter[$0 => $0]"; "    Read:Virtual["; "      - (1)"; "      - => a:i64]"; ""] in
    tidied (text_lines s) (text_lines s') /\ (exists p, parse registry_new s = Ok p) /\ alike (parse registry_new s) (parse registry_new s').
  Proof.
    assert (T : tidied (text_lines (pp_text ["=== Plan"; "Root[a]"; "  Filter[$0 => $0]"; "    Read:Virtual["; "      - (1)"; "      - => a:i64]"]))
      (text_lines (pp_text ["=== Plan  "; ""; "Root[a] "; "   "; "  Filter[$0 => $0]"; "    Read:Virtual["; "      - (1)"; "      - => a:i64]"; ""]))).
    { vm_compute text_lines. apply tidied_end; [reflexivity..|]. apply tidied_blank; [reflexivity..|]. apply tidied_end; [reflexivity..|].
      apply tidied_blank; [reflexivity..|]. do 4 apply tidied_same. apply tidied_blank; [reflexivity..|]. constructor. }
    split; [exact T|]. split; [eexists; vm_compute; reflexivity|]. apply C32_parse_layout. exact T.
  Qed.
  (** A blank line between a virtual table and its rows is not layout only. *)
  Theorem C32_blank_line_in_table_refuted : exists s s' p,
    filter (fun l => negb (blank l)) (text_lines s) = filter (fun l => negb (blank l)) (text_lines s') /\
    parse registry_new s = Ok p /\ (exists d, parse registry_new s' = Err d).
  Proof.
    exists (pp_text ["=== Plan"; "Read:Virtual["; "  - (1)"; "  - => a:i64]"]), (pp_text ["=== Plan"; "Read:Virtual["; ""; "  - (1)"; "  - => a:i64]"]).
    eexists. split; [reflexivity|]. split; [vm_compute; reflexivity|]. eexists. vm_compute. reflexivity.
  Qed.

  (** C38: three layouts of one table, one of them with carriage returns. *)
  Definition pp_rows : list (list pexpr) := [[ELit (mk_lit (Some (LI64 1)) false 0)]; [ELit (mk_lit (Some (LI64 2)) false 0)]].
  Definition pp_cols : list (list N * ptype) := [(L "a", TSimple SI64 NRequired 0)].
  Definition pp_inline : list string := ["  Read:Virtual[(1), (2) => a:i64]"].
  Definition pp_mixed : list string := ["  Read:Virtual[(1),"; "    - (2) =>   a:i64]"].
  Definition pp_rowwise : list string := ["  Read:Virtual["; "    - (1) ,"; "    -   (2)"; "    - => a:i64]"].
  Definition pp_around (k : list N) : list N := pp_text ["=== Plan"; "Filter[$0 => $0]"] ++ k.
  Example C38_example :
    alike (parse registry_new (pp_around (pp_text pp_inline))) (parse registry_new (pp_around (pp_text pp_mixed))) /\
    alike (parse registry_new (pp_around (pp_text pp_inline))) (parse registry_new (pp_around (pp_returns pp_rowwise))) /\
    exists p, parse registry_new (pp_around (pp_text pp_inline)) = Ok p.
  Proof.
    assert (K : forall t t' w w' k k',
      virtual_text [L "(1)"; L "(2)"] (L "a:i64") t -> virtual_text [L "(1)"; L "(2)"] (L "a:i64") t' -> forallb is_ws w = true -> forallb is_ws w' = true -> line_group k -> line_group k' ->
      group_text k = spaces (2 * 1) ++ t ++ w -> group_text k' = spaces (2 * 1) ++ t' ++ w' ->
      text_lines (pp_around (group_text k)) = [L "=== Plan"; L "Filter[$0 => $0]"] ++ k ++ [] ->
      text_lines (pp_around (group_text k')) = [L "=== Plan"; L "Filter[$0 => $0]"] ++ k' ++ [] ->
      alike (parse registry_new (pp_around (group_text k))) (parse registry_new (pp_around (group_text k')))).
    { intros t t' w w' k k' Ht Ht' Hw Hw' G G' E E' T T'.
      apply (C38_virtual_layouts _ _ registry_new opts_default exts_empty pp_rows None pp_cols t t' 1 w w' k k' [L "=== Plan"; L "Filter[$0 => $0]"] []); auto.
      - exact ascii_tables_sane.
      - apply wf_empty.
      - discriminate.
      - discriminate.
      - repeat constructor.
      - exact I.
      - constructor; [|constructor]. split; [|reflexivity]. vm_compute. auto.
      - eexists. split; [now left|reflexivity]. }
    assert (S1 : virtual_text [L "(1)"; L "(2)"] (L "a:i64") (L "Read:Virtual[(1), (2) => a:i64]")).
    { apply (virtual_intro [L "(1)"; L "(2)"] (L "a:i64") (L "[") (L "(1), (2)") (L " => ") 0).
      - constructor.
      - apply (sep_more (L "(1)") (L "(2)") [] (L ", ")); [apply (comma_intro 0 (L " ")), (gap_inline 1)|constructor].
      - apply (arrow_intro (L " ") 1), (gap_inline 1). }
    split; [|split; [|eexists; vm_compute; reflexivity]].
    - apply (K (L "Read:Virtual[(1), (2) => a:i64]") (L "Read:Virtual[(1)," ++ [10%N] ++ L "    - (2) =>   a:i64]") [10%N] [10%N] (map L pp_inline) (map L pp_mixed)); try reflexivity; [exact S1| | |].
      + apply (virtual_intro [L "(1)"; L "(2)"] (L "a:i64") (L "[") (L "(1)," ++ [10%N] ++ L "    - (2)") (L " =>   ") 0).
        * constructor.
        * apply (sep_more (L "(1)") (L "(2)") [] (L "," ++ [10%N] ++ L "    - ")); [|constructor].
          apply (comma_intro 0 ([10%N] ++ L "    - ")), gap_line, (new_line_intro 0 4 0).
        * apply (arrow_intro (L " ") 3), (gap_inline 1).
      + constructor.
      + repeat constructor.
    - apply (K (L "Read:Virtual[(1), (2) => a:i64]")
        (L "Read:Virtual[" ++ [13; 10]%N ++ L "    - (1) ," ++ [13; 10]%N ++ L "    -   (2)" ++ [13; 10]%N ++ L "    - => a:i64]") [10%N] [13; 10]%N (map L pp_inline)
        (map (fun l => L l ++ [13%N]) pp_rowwise)); try reflexivity; [exact S1| | |].
      + apply (virtual_intro [L "(1)"; L "(2)"] (L "a:i64") (L "[" ++ [13; 10]%N ++ L "    - ") (L "(1) ," ++ [13; 10]%N ++ L "    -   (2)") ([13; 10]%N ++ L "    - => ") 0).
        * apply (open_line ([13; 10]%N ++ L "    - ")), (new_line_return 0 4 0).
        * apply (sep_more (L "(1)") (L "(2)") [] (L " ," ++ [13; 10]%N ++ L "    -   ")); [|constructor].
          apply (comma_intro 1 ([13; 10]%N ++ L "    -   ")), gap_line, (new_line_return 0 4 2).
        * apply (arrow_intro ([13; 10]%N ++ L "    - ") 1), gap_line, (new_line_return 0 4 0).
      + constructor.
      + repeat constructor.
  Qed.

  (** C17: addenda of all kinds. *)
  Definition pp_addenda : list N := pp_text
    ["=== Plan"; "Root[a]"; "  Filter[$0 => $0]"; "    + Opt:Opt['x']"; "    + Enh:Hint['h', limit=3]"; "    + Opt:Opt['y']";
     "    Read:Extension[a:i64]"; "      + Ext:Tab['t']"; "      + Opt:Opt['z']"].
  Example C17_example_addenda :
    match parse pp_reg pp_addenda with
    | Ok p => match pl_rels _ p with
              | [PRoot _ (Some (RFilter _ (Some r) _ (Some a)))] =>
                  a = mk_advext (Some (mk_any (L "u/3") (L "3:h"))) [mk_any (L "u/4") (L ":x"); mk_any (L "u/4") (L ":y")] /\
                  rel_table r = [mk_any (L "u/2") (L ":t")] /\ rel_optimizations r = [mk_any (L "u/4") (L ":z")]
              | _ => False
              end
    | _ => False
    end.
  Proof. vm_compute. repeat split; reflexivity. Qed.

  (** C37: an error found while relations are built, after all lines were read: the
      second enhancement of a relation. *)
  Example C37_example_build : exists d,
    parse pp_reg (pp_text ["=== Plan"; ""; "Root[a]"; "  Filter[$0 => $0]"; "    + Enh:Hint['h']"; ""; "    + Enh:Hint['k']"; "    Read[t => a:i64]"]) = Err d /\ error_line d = 7%N.
  Proof. eexists. split; vm_compute; reflexivity. Qed.
  Example C37_example_relation : exists d,
    build_rel pp_reg exts_empty (RNode (YFilter (XRef (L "0")) [L "0"]) 4 [] []) = Err d /\ error_line d = 4%N.
  Proof. eexists. split; vm_compute; reflexivity. Qed.
  (** In front of the first section the number is not that of the line. *)
  Theorem C37_first_section_refuted : exists s d, parse registry_new s = Err d /\ ~ written_at s (error_line d).
  Proof.
    exists (pp_text [""; "x"]), (EInitial 0). split; [vm_compute; reflexivity|]. intros (b & k & a & _ & _ & _ & H). cbn [error_line] in H. lia.
  Qed.
End Examples.
