(** Relation trees: what is written is read back. *)
From Coq Require Import String List NArith ZArith Bool Lia PeanoNat.
From Verif Require Import Base BaseFacts Peg PegFacts PegYields Names SpecNames NamesFacts Props_Names SimpleExt Out
  Anchors SimpleExtFacts SpecExt AnchorsFacts Types SpecTypes TypesFacts ExtReadFacts Lines LinesFacts SpecLines Tree SpecTree
  TreeFacts Calendar Literals SpecLiterals LiteralsFacts Exprs SpecExprs ExprsFacts ExprEq ExtArgs Registry Rels RelGrammar
  Structural StructuralFacts LineView ReadFacts Props_Structural RelRead Plan SpecRels RelReadFacts SpecPlan OutClosed
  NoNewline ExtLinesFacts SpecExtLines Version PreambleFacts Props_Preamble ExtArgsFacts RelTextFacts SpecVirtual VirtualFacts BuildFacts.
Import ListNotations.
Local Open Scope string_scope.
Local Open Scope list_scope.
Local Open Scope nat_scope.
Local Open Scope peg_scope.

(** ** Lines and indentation *)

Definition seen (t : list N) : Prop := hd_not is_ws t = true /\ t <> [].
Lemma seen_trim t : seen t -> trim_end t <> [] /\ hd_not is_sp (trim_end t) = true.
Proof.
  intros [H Hn]. destruct t as [|c r]; [congruence|]. cbn [hd_not] in H. apply negb_true_iff in H.
  unfold trim_end. cbn [trim_end_by].
  assert (S : is_sp c = false).
  { unfold is_sp. destruct (N.eqb_spec c c_sp); [subst; discriminate|reflexivity]. }
  destruct (trim_end_by is_ws r); rewrite ?H; cbn [hd_not]; rewrite S; split; auto; discriminate.
Qed.
Lemma span_spaces k t : hd_not is_sp t = true -> span (fun c => (c =? c_sp)%N) (spaces k ++ t) = (spaces k, t).
Proof.
  intros H. induction k as [|k IH].
  - destruct t as [|c t]; [reflexivity|]. cbn [spaces repeat app span hd_not] in *. unfold is_sp in H.
    apply negb_true_iff in H. now rewrite H.
  - unfold spaces in *. cbn [repeat app span]. rewrite IH. reflexivity.
Qed.
Lemma indented_at d t : seen t -> indented (spaces (2 * d) ++ t) = (d, trim_end t).
Proof.
  intros H. destruct (seen_trim t H) as [H1 H2]. unfold indented.
  assert (E : trim_end (spaces (2 * d) ++ t) = spaces (2 * d) ++ trim_end t) by now apply trim_end_by_app.
  rewrite E, span_spaces by exact H2. cbn [fst]. unfold spaces at 1 2. rewrite repeat_length, Nat.div2_double.
  f_equal. replace (d * 2) with (length (spaces (2 * d)) + 0) by (unfold spaces; rewrite repeat_length; lia).
  now rewrite skipn_app, skipn_all2, Nat.add_0_r, Nat.sub_diag by lia.
Qed.
Lemma spaces_nl k : contains_char c_nl (spaces k) = false.
Proof. induction k; [reflexivity|exact IHk]. Qed.
Lemma starts_differ x p c r : x <> c -> starts_with (x :: p) (c :: r) = false.
Proof. intros H. unfold starts_with. cbn [strip_prefix]. destruct (N.eqb_spec x c); [congruence|reflexivity]. Qed.
Lemma trim_bracket b : trim_end (b ++ L "]") = b ++ L "]".
Proof. unfold trim_end. now rewrite trim_end_by_app. Qed.

(** Lines, each behind a line break. *)
Definition broken (ls : list (list N)) : list N := concat (map (fun l => [c_nl] ++ l) ls).
Lemma broken_app a b : broken (a ++ b) = broken a ++ broken b.
Proof. unfold broken. now rewrite map_app, concat_app. Qed.
Lemma broken_join l ls : [c_nl] ++ join [c_nl] (l :: ls) = broken (l :: ls).
Proof. rewrite join_cons. reflexivity. Qed.
Lemma broken_unl ls : broken ls ++ [c_nl] = [c_nl] ++ unl ls.
Proof.
  induction ls as [|l ls IH]; [reflexivity|]. unfold broken, unl in *. cbn [map concat].
  rewrite <- !app_assoc. cbn [app] in *. now rewrite IH.
Qed.

(** ** Groups of lines and nodes *)

Definition reader (d : nat) : list N -> pres (rline + acst) := if (d =? 0)%nat then read_root else read_node.
Definition numbered_at (n : N) (y : rline + acst) : lnode rline acst :=
  match y with inl r => LRel r n | inr a => LAdd a n end.
(** A group read as a node, whatever its number. *)
Definition good (k : list (list N)) (x : nat * lnode rline acst) : Prop :=
  fresh_group k /\ Forall nl_free k /\ blank (group_text k) = false /\
  fst x = fst (indented (group_text k)) /\
  exists y, reader (fst x) (snd (indented (group_text k))) = Ok y /\
    unnumber_lnode _ _ (snd x) = numbered_at 0 y.

Lemma seen_alpha t : starts_alpha t -> seen t.
Proof. intros (c & r & -> & H). split; [|discriminate]. cbn [hd_not]. revert H. unfold is_alpha, is_upper, is_lower, is_ws. chars. Qed.
Lemma seen_app a b : seen a -> seen (a ++ b).
Proof. intros [H Hn]. destruct a; [congruence|]. split; [exact H|discriminate]. Qed.
Lemma not_blank s t : seen t -> blank (s ++ t) = false.
Proof.
  intros [H Hn]. destruct t as [|c t]; [congruence|]. unfold blank. rewrite forallb_app. cbn [forallb hd_not] in *.
  apply negb_true_iff in H. rewrite H. apply andb_false_r.
Qed.

Section Trees.
  Context (U : Unicode) (F : Floats).
  Variable op : options.
  Hypothesis Hindent : op_indent op = L "  ".

  Let indent_spaces d : indent_text op d = spaces (2 * d) := indent_spaces op d Hindent.

  Lemma header_group d h y : header_line op h y -> forall n, exists k,
    [c_nl] ++ o_text (header_out op d h) = broken k /\ good k (d, LRel y n).
  Proof.
    intros H n. destruct (H d) as (t & Et & (first & rest & -> & Hf & Hr) & Ha & (b & Eb) & Gr & Gt).
    exists ((indent_text op d ++ first) :: rest).
    assert (Ek : join [c_nl] ((indent_text op d ++ first) :: rest) = indent_text op d ++ join [c_nl] (first :: rest)).
    { rewrite !join_cons. now rewrite <- app_assoc. }
    assert (Hseen : seen first).
    { destruct first as [|c first]; [|apply seen_alpha in Ha; rewrite join_cons in Ha; destruct Ha as [Ha _]; split; [exact Ha|discriminate]].
      exfalso. rewrite join_cons in Ha. destruct rest as [|r rest]; destruct Ha as (c & q & E & Hc); cbn in E; [discriminate|].
      injection E as <- _. discriminate. }
    rewrite Et. split; [rewrite <- broken_join, Ek; reflexivity|].
    assert (Eg : group_text ((indent_text op d ++ first) :: rest) = (indent_text op d ++ join [c_nl] (first :: rest)) ++ [c_nl]).
    { rewrite <- Ek. apply (app_inv_head [c_nl]). rewrite (app_assoc [c_nl]), broken_join, broken_unl. reflexivity. }
    assert (Ei : indented (group_text ((indent_text op d ++ first) :: rest)) = (d, join [c_nl] (first :: rest))).
    { rewrite Eg, indented_drop by reflexivity. rewrite indent_spaces, indented_at by now apply seen_alpha.
      f_equal. rewrite Eb. apply trim_bracket. }
    assert (E0 : fst (indented (indent_text op d ++ first)) = d) by now rewrite indent_spaces, indented_at.
    unfold good. cbn [fst snd]. rewrite Ei. cbn [fst snd]. split; [|split; [|split; [|split; [reflexivity|]]]].
    - split.
      + cbn [line_group]. rewrite E0. eapply Forall_impl; [|exact Hr]. intros l (u & -> & _ & Hu1 & Hu2). rewrite indent_spaces.
        unfold continuation. rewrite indented_at by (split; [reflexivity|discriminate]). cbn [fst snd]. split; [reflexivity|].
        unfold trim_end. rewrite trim_end_by_app; [reflexivity|]. now apply seen_trim.
      + unfold continuation. rewrite indent_spaces, indented_at by exact Hseen. cbn [snd].
        assert (Ca : exists c r, first = c :: r /\ is_alpha c = true).
        { destruct Ha as (c & r & E & Hc). destruct Hseen as [_ Hn]. destruct first as [|c' first]; [congruence|].
          rewrite join_cons in E. injection E as -> _. eauto. }
        destruct Ca as (c & r & -> & Hc). split.
        * unfold trim_end. cbn [trim_end_by]. assert (Hw : is_ws c = false) by (destruct Hseen as [Hs _]; now apply negb_true_iff in Hs).
          rewrite Hw. assert (Hd : 45%N <> c) by (intros <-; discriminate).
          destruct (trim_end_by is_ws r); apply (starts_differ 45 (L " ")); exact Hd.
        * destruct (2 * d) as [|n0]; [|apply (starts_differ 61 (L "==")); discriminate].
          apply (starts_differ 61 (L "==") c). intros <-; discriminate.
    - constructor.
      + rewrite indent_spaces. unfold nl_free. rewrite contains_char_app, Hf, orb_false_r. apply spaces_nl.
      + eapply Forall_impl; [|exact Hr]. intros l (u & -> & Hu & _). unfold nl_free. rewrite !contains_char_app, Hu, indent_spaces, spaces_nl. reflexivity.
    - rewrite Eg, <- app_assoc. apply not_blank. now apply seen_app, seen_alpha.
    - exists (inl y). split; [|reflexivity]. unfold reader, read_root, read_node, g_top, g_node.
      assert (E1 : (pmap inl g_relation <|> pmap inr g_addendum) (join [c_nl] (first :: rest)) = Some (@inl rline acst y, [])).
      { apply palt_l, pmap_some. exact Gr. }
      destruct (d =? 0)%nat.
      + rewrite (palt_r _ _ _ _ (pmap_none inl _ _ Gt) E1). reflexivity.
      + rewrite E1. reflexivity.
  Qed.
  Lemma addendum_group d o c : addendum_line (o_text o) c -> forall n, exists k,
    [c_nl] ++ indent_text op (S d) ++ o_text o = broken k /\ good k (S d, LAdd c n).
  Proof.
    intros (Hn & (r & Er) & (b & Eb) & G1 & _ & G3) n. exists [indent_text op (S d) ++ o_text o].
    assert (Hs : seen (o_text o)) by (rewrite Er; split; [reflexivity|discriminate]).
    assert (Hi : indented (indent_text op (S d) ++ o_text o) = (S d, o_text o)).
    { rewrite indent_spaces, indented_at by exact Hs. f_equal. rewrite Eb. apply trim_bracket. }
    assert (Hg : group_text [indent_text op (S d) ++ o_text o] = (indent_text op (S d) ++ o_text o) ++ [c_nl]).
    { unfold group_text. cbn [map concat]. now rewrite app_nil_r. }
    split; [unfold broken; cbn [map concat]; now rewrite app_nil_r|].
    unfold good. cbn [fst snd]. rewrite Hg, indented_drop, Hi by reflexivity. cbn [fst snd]. split; [|split; [|split; [|split; [reflexivity|]]]].
    - split; [constructor|]. unfold continuation. rewrite Hi. cbn [snd]. rewrite Er. split; [reflexivity|].
      rewrite indent_spaces. reflexivity.
    - constructor; [|constructor]. unfold nl_free. rewrite contains_char_app, Hn, indent_spaces, spaces_nl. reflexivity.
    - rewrite <- app_assoc. apply not_blank. now apply seen_app.
    - exists (inr c). split; [|reflexivity]. unfold reader. cbn [Nat.eqb]. unfold read_node, g_node.
      rewrite (palt_r _ _ _ _ (pmap_none inl _ _ G1) (pmap_some inr _ _ _ _ G3)). reflexivity.
  Qed.

  (** ** Views *)

  (** The lines of a relation are those of the tree [n]. *)
  Definition view_back (v : view) (n : rnode rline acst) : Prop :=
    forall d, exists ks, [c_nl] ++ o_text (view_out op d v) = broken (concat ks) /\ Forall2 good ks (flatten d n).

  Lemma addenda_groups d os cs : Forall2 (fun o c => addendum_line (o_text o) c) os cs ->
    exists ks, o_text (fold_right oapp onil (map (fun a => txt ([c_nl] ++ indent_text op (S d)) +++ a) os)) = broken (concat ks) /\
      Forall2 good ks (map (fun a => (S d, LAdd (fst a) (snd a))) (map (fun c => (c, 0%N)) cs)).
  Proof.
    induction 1 as [|o c os cs H _ (ks & E & G)]; [exists []; split; [reflexivity|constructor]|].
    destruct (addendum_group d o c H 0%N) as (k & Ek & Gk). exists (k :: ks). cbn [map fold_right concat fst snd].
    rewrite broken_app, <- Ek, <- E, !o_text_app. split; [|now constructor]. cbn [o_text txt]. now rewrite <- !app_assoc.
  Qed.
  Lemma children_groups d vs ns : Forall2 view_back vs ns ->
    exists ks, o_text (fold_right oapp onil (map (fun c => match c with
                       | Some v => txt [c_nl] +++ view_out op d v
                       | None => onil
                       end) (map Some vs))) = broken (concat ks) /\
      Forall2 good ks (concat (map (flatten d) ns)).
  Proof.
    induction 1 as [|v n vs ns H _ (ks & E & G)]; [exists []; split; [reflexivity|constructor]|].
    destruct (H d) as (k & Ek & Gk). exists (k ++ ks). cbn [map fold_right concat]. rewrite concat_app, broken_app, <- Ek, <- E, !o_text_app.
    split; [cbn [o_text txt]; now rewrite <- !app_assoc|]. now apply Forall2_app.
  Qed.
  Lemma view_node h y acs vs ns : header_line op h y ->
    Forall2 (fun o c => addendum_line (o_text o) c) (hd_addenda h) acs -> Forall2 view_back vs ns ->
    view_back (View h (map Some vs)) (RNode y 0 (map (fun c => (c, 0%N)) acs) ns).
  Proof.
    intros Hh Ha Hc d. destruct (header_group d h y Hh 0%N) as (k & Ek & Gk).
    destruct (addenda_groups d _ _ Ha) as (ka & Ea & Ga). destruct (children_groups (S d) _ _ Hc) as (kc & Ec & Gc).
    exists (k :: ka ++ kc). cbn [view_out concat flatten].
    rewrite concat_app, !broken_app, <- Ek, <- Ea, <- Ec, !o_text_app. split; [now rewrite <- !app_assoc|].
    constructor; [exact Gk|]. now apply Forall2_app.
  Qed.

  (** ** Relations *)
  Variable Hascii : ascii_sane U.
  Variables (reg : registry) (e : exts).
  Hypothesis W : wf_exts e.
  Hypothesis Hanc : op_anchors op <> VNever.
  Hypothesis Htyp : types_written op.
  Hypothesis Hshow : op_show_emit op = false.
  Let X : pexpr -> Prop := fun x => expr_ok e x = true.
  Let T : ptype -> Prop := fun t => type_ok e t = true.
  Let M : aggfn -> Prop := fun a => aggfn_ok e a = true.

  Lemma optimizations_back ds : Forall (fun d => detail_writable reg e X T XtOptimization d [] []) ds ->
    exists acs ads, Forall2 (fun o c => addendum_line (o_text o) c)
        (map (fun d => addendum_out op e "Opt" (decode_with_type reg XtOptimization d [])) ds) acs /\
      rlist (lower_addendum e) (map (fun c => (c, 0%N)) acs) = Ok ads /\
      (forall enh opts, standard_loop reg ads enh opts = Ok (enh, opts ++ ds)) /\
      Forall (fun a => is_table a = false) ads.
  Proof.
    induction 1 as [|d ds Hd _ (acs & ads & H1 & H2 & H3 & H4)].
    - exists [], []. split; [constructor|]. split; [reflexivity|]. split; [|constructor]. intros. cbn. now rewrite app_nil_r.
    - destruct (addendum_back U F Hascii reg op e W Hanc Htyp XtOptimization d ltac:(discriminate) Hd) as (c & name & a & G1 & G2 & G3).
      exists (c :: acs), (mk_ainv XtOptimization name a 0 :: ads). split; [constructor; auto|].
      cbn [map rlist]. rewrite G2. cbn [rbind]. rewrite H2. split; [reflexivity|]. split; [|constructor; auto].
      intros enh opts. cbn [standard_loop ai_kind]. unfold resolve_addendum, resolve. cbn [ai_kind ai_line ai_name ai_args].
      rewrite G3. cbn [rbind]. rewrite H3, <- app_assoc. reflexivity.
  Qed.
  Lemma adv_back adv : adv_writable reg e X T adv ->
    exists acs ads, Forall2 (fun o c => addendum_line (o_text o) c) (adv_lines reg op e adv) acs /\
      rlist (lower_addendum e) (map (fun c => (c, 0%N)) acs) = Ok ads /\
      standard_addenda reg ads = Ok adv /\ Forall (fun a => is_table a = false) ads.
  Proof.
    destruct adv as [[enh opts]|]; [|intros _; exists [], []; repeat split; constructor].
    intros (Hne & Henh & Hopts). cbn [ae_enhancement ae_optimizations] in *.
    destruct (optimizations_back opts Hopts) as (acs & ads & H1 & H2 & H3 & H4). destruct enh as [d|].
    - destruct (addendum_back U F Hascii reg op e W Hanc Htyp XtEnhancement d ltac:(discriminate) (Henh d eq_refl)) as (c & name & a & G1 & G2 & G3).
      exists (c :: acs), (mk_ainv XtEnhancement name a 0 :: ads). split; [constructor; auto|].
      cbn [map rlist]. rewrite G2. cbn [rbind]. rewrite H2. split; [reflexivity|]. split; [|constructor; auto].
      unfold standard_addenda. cbn [standard_loop ai_kind]. unfold resolve_addendum, resolve. cbn [ai_kind ai_line ai_name ai_args].
      rewrite G3. cbn [rbind]. rewrite H3. reflexivity.
    - exists acs, ads. split; [exact H1|]. split; [exact H2|]. split; [|exact H4].
      unfold standard_addenda. rewrite H3. cbn [rbind app]. destruct opts; [destruct Hne; congruence|reflexivity].
  Qed.

  Lemma standard_relation y cs a x line ads : lower_rel e y cs a = Ok x -> standard_addenda reg ads = Ok a ->
    parse_relation reg e y line ads cs = Ok x.
  Proof.
    intros H Ha. unfold parse_relation. destruct y; try discriminate H; rewrite Ha; cbn [rbind]; rewrite H; reflexivity.
  Qed.

  Definition rel_back (r : prel) (w : nat) : Prop :=
    emitted (view_of reg op e r) = w /\
    exists n, build_rel reg e n = Ok (r, w) /\ view_back (view_of reg op e r) n.

  Lemma standard_node h y adv vs cs ns r w : header_line op h y -> hd_addenda h = adv_lines reg op e adv ->
    adv_writable reg e X T adv -> Forall2 view_back vs ns -> rlist (build_rel reg e) ns = Ok cs ->
    lower_rel e y cs adv = Ok (r, w) ->
    exists n, build_rel reg e n = Ok (r, w) /\ view_back (View h (map Some vs)) n.
  Proof.
    intros Hh Ea Ha Hv Hc Hl. destruct (adv_back adv Ha) as (acs & ads & A1 & A2 & A3 & _).
    exists (RNode y 0 (map (fun c => (c, 0%N)) acs) ns). split.
    - cbn [build_rel]. rewrite Hc. cbn [rbind]. rewrite A2. cbn [rbind]. eapply standard_relation; eauto.
    - apply view_node; auto. now rewrite Ea.
  Qed.

  Lemma list_back l ws : Forall2 rel_back l ws ->
    exists ns, Forall2 view_back (map (view_of reg op e) l) ns /\ rlist (build_rel reg e) ns = Ok (combine l ws) /\
      map emitted (map (view_of reg op e) l) = ws.
  Proof.
    induction 1 as [|r w l ws (E & n & Hn & Vn) _ (ns & H1 & H2 & H3)]; [exists []; repeat split; constructor|].
    exists (n :: ns). cbn [map rlist combine]. rewrite Hn. cbn [rbind]. rewrite H2, H3, E. repeat split; auto.
  Qed.

  Lemma map_const {A B} (n : B) (l : list A) : forall k, In k (map (fun _ => n) l) -> k = n.
  Proof. intros k H. apply in_map_iff in H as (_ & <- & _). reflexivity. Qed.
  Lemma combine_const {A B} (n : B) (l : list A) : combine l (map (fun _ => n) l) = map (fun x => (x, n)) l.
  Proof. induction l as [|x l IH]; [reflexivity|]. cbn [map combine]. now rewrite IH. Qed.
  Lemma combine_fst {A B} (R : A -> B -> Prop) (l : list A) ws : Forall2 R l ws -> map fst (combine l ws) = l.
  Proof. induction 1 as [|x w l ws _ _ IH]; [reflexivity|]. cbn [combine map fst]. now rewrite IH. Qed.
  Lemma schema_columns s n : schema_writable T s n -> exists cols,
    s = Some (columns_schema cols) /\ Forall (fun c => name_ok (fst c) /\ T (snd c)) cols /\ n = length cols.
  Proof. intros (cols & H). exists cols. exact H. Qed.

  Scheme writable_min := Minimality for writable Sort Prop
    with writable_list_min := Minimality for writable_list Sort Prop.

  Lemma one_child_node h y adv i n r w : header_line op h y -> hd_addenda h = adv_lines reg op e adv ->
    adv_writable reg e X T adv -> rel_back i n -> lower_rel e y [(i, n)] adv = Ok (r, w) ->
    exists t, build_rel reg e t = Ok (r, w) /\ view_back (View h [Some (view_of reg op e i)]) t.
  Proof.
    intros Hh Ea Ha (_ & t & Ht & Vt) Hl.
    apply (standard_node h y adv [view_of reg op e i] [(i, n)] [t] r w Hh Ea Ha); [repeat constructor; exact Vt| |exact Hl].
    cbn [rlist]. rewrite Ht. reflexivity.
  Qed.
  Lemma two_child_node h y adv i n j k r w : header_line op h y -> hd_addenda h = adv_lines reg op e adv ->
    adv_writable reg e X T adv -> rel_back i n -> rel_back j k -> lower_rel e y [(i, n); (j, k)] adv = Ok (r, w) ->
    exists t, build_rel reg e t = Ok (r, w) /\ view_back (View h [Some (view_of reg op e i); Some (view_of reg op e j)]) t.
  Proof.
    intros Hh Ea Ha (_ & t & Ht & Vt) (_ & t' & Ht' & Vt') Hl.
    apply (standard_node h y adv [view_of reg op e i; view_of reg op e j] [(i, n); (j, k)] [t; t'] r w Hh Ea Ha);
      [repeat constructor; assumption| |exact Hl].
    cbn [rlist]. rewrite Ht. cbn [rbind]. rewrite Ht'. reflexivity.
  Qed.

  Theorem relation_back r w : writable reg op e X T M r w -> rel_back r w.
  Proof.
    intros H. revert r w H.
    apply (writable_min U F reg op e X T M rel_back (Forall2 rel_back)).
    - (* named table *)
      intros c s names adv n w Hne Hn Hs Ha Hc. destruct (schema_columns _ _ Hs) as (cols & -> & Hcols & ->).
      destruct (read_line U F reg op e W Hanc Hshow c cols names w adv Hne Hn Hcols Hc) as (y & Hh & Hw & Hl).
      split; [exact Hw|]. cbn [view_of]. apply (standard_node _ y adv [] [] []); auto.
    - (* virtual table *)
      intros s f rows adv n Hs Hf Hr Ha. destruct (schema_columns _ _ Hs) as (cols & -> & Hcols & ->).
      destruct (virtual_line U F Hascii op e W Hanc Htyp Hshow Hindent reg cols f rows adv Hr Hf Hcols) as (y & Hh & Hw & Hl).
      split; [exact Hw|]. cbn [view_of]. apply (standard_node _ y adv [] [] []); auto.
    - (* extension table *)
      intros s d adv n Hs Hd Ha. destruct (schema_columns _ _ Hs) as (cols & -> & Hcols & ->).
      destruct (table_line_back U F reg op e W Hanc Hshow cols (Some d) adv Hcols) as (cs & Lc & Hh & Hw & Ea).
      split; [exact Hw|]. cbn [view_of]. destruct (adv_back adv Ha) as (acs & ads & A1 & A2 & A3 & A4).
      destruct (addendum_back U F Hascii reg op e W Hanc Htyp XtTable d ltac:(discriminate) Hd) as (c & name & a & G1 & G2 & G3).
      exists (RNode (YExtRead cs) 0 (map (fun c => (c, 0%N)) (c :: acs)) []). split.
      + cbn [build_rel rlist rbind map]. rewrite G2. cbn [rbind]. rewrite A2. cbn [rbind parse_relation].
        unfold extension_read_addenda. cbn [filter is_table ai_kind xtype_eqb negb].
        assert (E1 : filter is_table ads = []).
        { clear - A4. induction A4 as [|x l Hx _ IH]; [reflexivity|]. cbn [filter]. now rewrite Hx. }
        assert (E2 : filter (fun a => negb (is_table a)) ads = ads).
        { clear - A4. induction A4 as [|x l Hx _ IH]; [reflexivity|]. cbn [filter]. rewrite Hx. cbn [negb]. now rewrite IH. }
        rewrite E1, E2. unfold resolve_addendum, resolve. cbn [ai_kind ai_line ai_name ai_args]. rewrite G3. cbn [rbind].
        rewrite A3. cbn [rbind fst snd]. rewrite Lc. reflexivity.
      + apply (view_node _ _ _ [] []); auto. rewrite Ea. constructor; auto.
    - (* filter *)
      intros c i x adv n m w _ Hi Hx Ha He. pose proof Hi as (Ei & _).
      destruct (filter_line U F Hascii reg op e W Hanc Htyp Hshow c n x m w adv Hx He) as (y & Hh & Hw & Hl).
      unfold rel_back. cbn [view_of width]. rewrite Ei. split; [exact Hw|]. eapply one_child_node; [exact Hh|reflexivity|exact Ha|exact Hi|apply Hl].
    - (* project *)
      intros c i xs adv n m w _ Hi Hx Hr Ha He Ho. pose proof Hi as (Ei & _).
      destruct (project_line U F Hascii reg op e W Hanc Htyp Hshow c n xs m w adv Hx Hr He Ho) as (y & Hh & Hw & Hl).
      unfold rel_back. cbn [view_of width]. rewrite Ei. split; [exact Hw|]. eapply one_child_node; [exact Hh|reflexivity|exact Ha|exact Hi|apply Hl].
    - (* aggregate *)
      intros c i gexprs groups ms adv n m w _ Hi Hg Hm Ha He Ho.
      destruct (aggregate_line U F Hascii reg op e W Hanc Htyp Hshow c n gexprs groups ms m w adv Hg Hm He Ho) as (y & Hh & Hw & Hl).
      unfold rel_back. cbn [view_of]. split; [exact Hw|]. eapply one_child_node; [exact Hh| |exact Ha|exact Hi|apply Hl].
      unfold aggregate_header. destruct (grouping_values _ _ _ _). reflexivity.
    - (* sort *)
      intros c i sorts adv n m w _ Hi Hne Hs Ha He. pose proof Hi as (Ei & _).
      destruct (sort_line U F Hascii reg op e W Hanc Htyp Hshow c n sorts m w adv Hne Hs He) as (y & Hh & Hw & Hl).
      unfold rel_back. cbn [view_of width]. rewrite Ei. split; [exact Hw|]. eapply one_child_node; [exact Hh|reflexivity|exact Ha|exact Hi|apply Hl].
    - (* fetch *)
      intros c i count offset adv n m w _ Hi Hc Ho Ha He. pose proof Hi as (Ei & _).
      destruct (fetch_line U F Hascii reg op e W Hanc Htyp Hshow c n count offset m w adv Hc Ho He) as (y & Hh & Hw & Hl).
      unfold rel_back. cbn [view_of width]. rewrite Ei. split; [exact Hw|]. eapply one_child_node; [exact Hh|reflexivity|exact Ha|exact Hi|apply Hl].
    - (* join *)
      intros c l r x post t adv nl nr name shown m w _ Hl _ Hr Hx Hp Ha Ht Hj He. pose proof Hl as (El & _). pose proof Hr as (Er & _).
      destruct (join_line U F Hascii reg op e W Hanc Htyp Hshow c nl nr x post t name shown m w adv Hx Hp Ht Hj He) as (y & Hh & Hw & Hb).
      unfold rel_back. cbn [view_of width]. rewrite El, Er. split; [exact Hw|]. eapply two_child_node; [exact Hh|reflexivity|exact Ha|exact Hl|exact Hr|apply Hb].
    - (* set *)
      intros c i1 i2 l o adv n name m w _ H1 _ H2 _ Hrest Ha Ho He.
      assert (HF : Forall2 rel_back (i1 :: i2 :: l) (map (fun _ => n) (i1 :: i2 :: l))).
      { cbn [map]. constructor; [exact H1|]. constructor; [exact H2|]. clear - Hrest. induction l as [|i l IH]; constructor.
        - apply Hrest. now left.
        - apply IH. intros; apply Hrest. now right. }
      destruct (list_back _ _ HF) as (ns & V & B & E).
      destruct (set_line U F reg op e Hshow c n (map (fun _ => n) (i1 :: i2 :: l)) o name m w adv) as (y & Hh & Hw & Hb);
        [discriminate|apply map_const|exact Ho|exact He|].
      unfold rel_back. cbn [view_of]. rewrite E. split; [exact Hw|].
      rewrite combine_const in B. eapply standard_node; [exact Hh|reflexivity|exact Ha|exact V|exact B|].
      rewrite Hb; [|cbn [map length]; lia|intros x Hx; apply in_map_iff in Hx as (i & <- & _); reflexivity].
      rewrite map_map. cbn [fst]. now rewrite map_id.
    - (* cross *)
      intros c l r adv nl nr m w _ Hl _ Hr Ha He. pose proof Hl as (El & _). pose proof Hr as (Er & _).
      destruct (cross_line U F reg op e Hshow c nl nr m w adv He) as (y & Hh & Hw & Hb).
      unfold rel_back. cbn [view_of width]. rewrite El, Er. split; [exact Hw|]. eapply two_child_node; [exact Hh|reflexivity|exact Ha|exact Hl|exact Hr|apply Hb].
    - (* extension leaf *)
      intros d cols Hd. destruct (extension_line U F Hascii reg op e W Hanc Htyp Hshow XkLeaf d [] cols Hd) as (y & Hh & Hw & Ea & Hl).
      unfold rel_back. cbn [view_of]. split; [exact Hw|]. exists (RNode y 0 [] []). split.
      + cbn [build_rel rlist rbind]. rewrite Hl by reflexivity. reflexivity.
      + apply (view_node _ _ [] [] []); [exact Hh| |constructor]. cbn [kind_name] in Ea. rewrite Ea. constructor.
    - (* extension single *)
      intros d i n cols _ Hi Hd. pose proof Hi as (Ei & t & Ht & Vt).
      destruct (extension_line U F Hascii reg op e W Hanc Htyp Hshow XkSingle d [n] cols Hd) as (y & Hh & Hw & Ea & Hl).
      unfold rel_back. cbn [view_of]. rewrite Ei. split; [exact Hw|]. exists (RNode y 0 [] [t]). split.
      + cbn [build_rel rlist rbind]. rewrite Ht. cbn [rbind]. rewrite Hl by reflexivity. reflexivity.
      + apply (view_node _ _ [] [_] [t]); [exact Hh| |repeat constructor; exact Vt]. cbn [kind_name] in Ea. rewrite Ea. constructor.
    - (* extension multi *)
      intros d l ns cols _ HF Hd. destruct (list_back _ _ HF) as (ts & V & B & E).
      destruct (extension_line U F Hascii reg op e W Hanc Htyp Hshow XkMulti d ns cols Hd) as (y & Hh & Hw & Ea & Hl).
      unfold rel_back. cbn [view_of]. rewrite E. split; [exact Hw|]. exists (RNode y 0 [] ts). split.
      + cbn [build_rel]. rewrite B. cbn [rbind rlist]. rewrite Hl by reflexivity. cbn [create_rel].
        now rewrite (combine_fst _ _ _ HF).
      + apply (view_node _ _ [] _ ts); [exact Hh| |exact V]. cbn [kind_name] in Ea. rewrite Ea. constructor.
    - constructor.
    - intros. now constructor.
  Qed.

  (** ** Roots *)
  Lemma root_back names : Forall name_ok names -> exists k,
    [c_nl] ++ L "Root[" ++ join (L ", ") (map show_name names) ++ L "]" = broken k /\
    (forall n, good k (0, LRel (YRoot (map nm_of names)) n)) /\ rlist (@lower_name perr) (map nm_of names) = Ok names.
  Proof.
    intros Hn. set (t := L "Root[" ++ join (L ", ") (map show_name names) ++ L "]"). exists [t].
    assert (Hs : seen t) by (split; [reflexivity|discriminate]).
    assert (Ht : trim_end t = t) by (unfold t; rewrite app_assoc; apply trim_bracket).
    assert (Hi : indented t = (0, t)) by (rewrite <- Ht at 2; apply (indented_at 0 t Hs)).
    assert (Hg : group_text [t] = t ++ [c_nl]) by (unfold group_text; cbn [map concat]; now rewrite app_nil_r).
    assert (Nt : nl_free t).
    { apply (nlf_app (L "Root[")); [reflexivity|]. apply nlf_app; [now apply nlf_names|reflexivity]. }
    split; [unfold broken; cbn [map concat]; now rewrite app_nil_r|]. split; [|now apply names_back].
    intros n. unfold good. cbn [fst snd]. rewrite Hg, indented_drop, Hi by reflexivity. cbn [fst snd]. split; [|split; [|split; [|split; [reflexivity|]]]].
    - split; [constructor|]. unfold continuation. rewrite Hi. cbn [snd]. split; reflexivity.
    - now constructor.
    - apply (not_blank [] (t ++ [c_nl])). split; [reflexivity|discriminate].
    - exists (inl (YRoot (map nm_of names))). split; [|reflexivity]. unfold reader. cbn [Nat.eqb]. unfold read_root, g_top.
      assert (Hitems : Forall2 (item g_name) (map show_name names) (map nm_of names)).
      { clear. induction names as [|a names IH]; constructor; auto. split; [apply show_name_visible|].
        intros r Hr. apply g_name_show. apply andb_true_iff in Hr as [Hr _]. revert Hr. apply hd_not_weaken.
        intros c Hc. unfold lit_stop, type_stop. rewrite Hc. reflexivity. }
      assert (G : g_root t = Some (YRoot (map nm_of names), [])).
      { unfold g_root, t. eapply pthen_some; [reflexivity|]. eapply pthen_some; [reflexivity|].
        eapply pbind_some; [apply psep0_reads|].
        - apply strict_name.
        - apply comma_sp_like.
        - exact Hitems.
        - reflexivity.
        - reflexivity.
        - reflexivity.
        - reflexivity. }
      rewrite (palt_l _ _ _ _ (pmap_some inl _ _ _ _ G)). reflexivity.
  Qed.

  Lemma plan_rel_back p : plan_rel_writable reg op e X T M p -> exists n ks,
    build_plan_rel reg e n = Ok p /\ [c_nl] ++ o_text (plan_rel_out reg op e p) = broken (concat ks) /\
    Forall2 good ks (flatten 0 n).
  Proof.
    destruct p as [r|names [r|]|]; try contradiction.
    - intros (w & Hw). destruct (relation_back r w Hw) as (_ & n & Hn & V). destruct (V 0) as (ks & E & G).
      exists n, ks. split; [|split; [exact E|exact G]].
      destruct n as [y l ads cs]. destruct y; try (unfold build_plan_rel; rewrite Hn; reflexivity).
      exfalso. cbn [build_rel] in Hn. apply rbind_ok in Hn as (? & _ & Hn). apply rbind_ok in Hn as (? & _ & Hn).
      cbn [parse_relation] in Hn. apply rbind_ok in Hn as (? & _ & Hn). discriminate.
    - intros (Hn & w & Hw). destruct (relation_back r w Hw) as (_ & n & Hb & V). destruct (V 1) as (ks & E & G).
      destruct (root_back names Hn) as (k & Ek & Gk & Lk).
      exists (RNode (YRoot (map nm_of names)) 0 [] [n]), (k :: ks). split; [|split].
      + cbn [build_plan_rel]. rewrite Lk. cbn [lift_plan rbind]. rewrite Hb. reflexivity.
      + cbn [plan_rel_out concat]. rewrite broken_app, <- Ek, <- E, !o_text_app. cbn [o_text txt]. unfold rel_out.
        now rewrite <- !app_assoc.
      + cbn [flatten map concat app]. constructor; [apply Gk|]. rewrite app_nil_r. exact G.
  Qed.
End Trees.

(** ** From groups of lines to plans *)

Lemma add_lines_unnumber R A ls : forall (b : builder R A),
  add_lines (unnumber_builder R A b) (map (fun x => (fst x, unnumber_lnode R A (snd x))) ls) =
  rmap (unnumber_builder R A) (add_lines b ls).
Proof.
  induction ls as [|[d x] ls IH]; intros b; [reflexivity|]. cbn [map add_lines fst snd]. rewrite add_line_unnumber.
  destruct (add_line b d x); cbn [rmap rbind]; [apply IH|reflexivity|reflexivity].
Qed.
(** A forest can be rebuilt from its lines with other numbers. *)
Lemma renumber (f0 : list (rnode rline acst)) nodes :
  map (fun x => (fst x, unnumber_lnode _ _ (snd x))) nodes = map (fun x => (fst x, unnumber_lnode _ _ (snd x))) (flatten_all f0) ->
  exists b, add_lines builder_empty nodes = Ok b /\ map unnumber (finish b) = map unnumber f0.
Proof.
  intros E. destruct (proj2 (C15_tree_round_trip rline acst (flatten_all f0) f0) eq_refl) as (b0 & Hb & Hf).
  pose proof (add_lines_unnumber _ _ nodes builder_empty) as H1. pose proof (add_lines_unnumber _ _ (flatten_all f0) builder_empty) as H2.
  rewrite E, H2, Hb in H1. destruct (add_lines builder_empty nodes) as [b|x|x] eqn:Eb; cbn [rmap rbind] in H1; try discriminate.
  exists b. split; [reflexivity|]. rewrite <- Hf, <- !finish_unnumber.
  f_equal. congruence.
Qed.

Definition is_blank_group (k : list (list N)) : bool := blank (group_text k).
Lemma good_nodes ks xs : forall n, Forall2 good (filter (fun k => negb (is_blank_group k)) ks) xs ->
  exists nodes, Forall2 (reads_as _ _ read_root read_node) (filter written (number_groups n ks)) nodes /\
    map (fun x => (fst x, unnumber_lnode _ _ (snd x))) nodes = map (fun x => (fst x, unnumber_lnode _ _ (snd x))) xs.
Proof.
  revert xs. induction ks as [|k ks IH]; intros xs n H.
  - inversion H; subst. exists []. split; [constructor|reflexivity].
  - cbn [filter number_groups] in *. unfold written at 1. cbn [snd]. unfold is_blank_group in H at 1.
    destruct (blank (group_text k)); cbn [negb] in *; [now apply IH|].
    inversion H as [|? x ? xs' (_ & _ & _ & Hd & y & Hy & Hx) H']; subst. destruct (IH xs' (n + N.of_nat (length k))%N H') as (nodes & H1 & H2).
    exists ((fst x, numbered_at n y) :: nodes). split.
    + constructor; [|exact H1]. unfold reads_as. cbn [fst snd]. split; [exact Hd|]. exists y. split; [exact Hy|]. now destruct y.
    + cbn [map fst snd]. rewrite H2, Hx. now destruct y.
Qed.

Section Plans.
  Context (U : Unicode) (F : Floats).
  Variable reg : registry.

  Lemma plan_step (p : parser rline acst) n : ps_state _ _ p <> SPlan ->
    step _ _ read_root read_node p n (unl [L "=== Plan"]) = Ok (mk_parser _ _ SPlan (ps_version _ _ p) (ps_ext _ _ p) (ps_tree _ _ p)).
  Proof.
    intros H. unfold step.
    change (blank (unl [L "=== Plan"])) with false. cbv iota. unfold parse_line.
    change (indented (unl [L "=== Plan"])) with (0, L "=== Plan").
    cbv iota beta. change (starts_with (L "===") (L "=== Plan")) with true. cbv iota.
    unfold parse_section_header. change (streqb (L "=== Plan") hdr_extensions) with false.
    change (streqb (L "=== Plan") hdr_plan) with true. cbv iota. cbn [rbind fst snd].
    destruct (ps_state _ _ p); try congruence; reflexivity.
  Qed.
  Lemma plan_lines bl : forall (p : parser rline acst) n s ks, Forall (fun l => blank l = true) bl -> ps_state _ _ p <> SPlan ->
    text_lines s = bl ++ L "=== Plan" :: concat ks ->
    exists m rest, text_lines rest = concat ks /\
      prest _ _ read_root read_node p n s =
      prest _ _ read_root read_node (mk_parser _ _ SPlan (ps_version _ _ p) (ps_ext _ _ p) (ps_tree _ _ p)) m rest.
  Proof.
    induction bl as [|l bl IH]; intros p n s ks Hb Hp E.
    - destruct (prest_lines _ _ read_root read_node p n s _ _ E) as (rest & Hrest & _ & ->).
      assert (Ec : lines_chunk (in_plan rline acst p) (L "=== Plan") (concat ks) = ([], concat ks)).
      { unfold lines_chunk, in_plan. destruct (ps_state _ _ p); congruence || reflexivity. }
      rewrite Ec in *. cbn [fst snd] in *. rewrite plan_step by exact Hp. cbn [rbind]. eauto.
    - cbn [app] in E. inversion_clear Hb as [|? ? B1 B2].
      destruct (prest_lines _ _ read_root read_node p n s _ _ E) as (rest & Hrest & _ & ->).
      assert (Ec : lines_chunk (in_plan rline acst p) l (bl ++ L "=== Plan" :: concat ks) = ([], bl ++ L "=== Plan" :: concat ks)).
      { unfold lines_chunk, in_plan. destruct (ps_state _ _ p); congruence || reflexivity. }
      rewrite Ec in *. cbn [fst snd] in *. unfold step at 1.
      assert (B : blank (unl [l]) = true) by (cbn [unl map concat]; rewrite !blank_app, B1; reflexivity).
      rewrite B. cbn [rbind]. now apply IH.
  Qed.

  (** A text whose lines are a preamble, the plan header and the lines of the
      trees [f0] is parsed to the plan built from these trees. *)
  Theorem parse_lines v e bl ks f0 rels s :
    match v with Some w => version_writable w | None => true end = true ->
    wf_exts e -> exts_writable e = true -> Forall (fun l => blank l = true) bl ->
    text_lines s = version_lines (L "  ") v ++ exts_lines (L "  ") e ++ bl ++ L "=== Plan" :: concat ks ->
    Forall fresh_group ks -> Forall2 good (filter (fun k => negb (is_blank_group k)) ks) (flatten_all f0) ->
    rlist (build_plan_rel reg e) f0 = Ok rels ->
    parse reg s = Ok (mk_plan _ (version_read v) (to_extension_urns e) (to_extension_declarations e) rels).
  Proof.
    intros Hv We Hw Hbl E Hk Hg Hr.
    destruct (C31_C10_preamble _ _ read_root read_node v e s _ Hv We Hw E) as (p & rest & Hrest & Pv & Pe & Ps & Pt & Hp).
    destruct (plan_lines bl p (1 + N.of_nat (length (version_lines (L "  ") v ++ exts_lines (L "  ") e))) rest ks Hbl Ps Hrest)
      as (m & rest' & Hrest' & Hp').
    destruct (good_nodes ks (flatten_all f0) m Hg) as (nodes & Hn1 & Hn2).
    destruct (renumber f0 nodes Hn2) as (b & Hb & Hfin).
    destruct (prest_groups _ _ read_root read_node ks (mk_parser _ _ SPlan (ps_version _ _ p) (ps_ext _ _ p) (ps_tree _ _ p)) m rest' nodes b
      Hrest' eq_refl Hk Hn1) as (p' & Hp2 & _ & Tp & Vp & Xp).
    { cbn [ps_tree]. rewrite Pt. exact Hb. }
    cbn [ps_version ps_ext] in Vp, Xp.
    unfold parse, parse_plan. rewrite Hp, Hp', Hp2. cbn [rbind]. unfold build_plan. rewrite Xp, Pe, Vp, Pv, Tp.
    assert (Hl : rlist (build_plan_rel reg e) (finish b) = Ok rels).
    { clear - Hfin Hr. revert rels Hr Hfin. generalize (finish b). induction f0 as [|n0 f0 IH]; intros [|n l] rels Hr E; try discriminate E.
      - exact Hr.
      - cbn [map] in E. injection E as E1 E2. cbn [rlist] in *. apply rbind_ok in Hr as (x & Hx & Hr). apply rbind_ok in Hr as (xs & Hxs & [= <-]).
        assert (Hn : build_plan_rel reg e n = Ok x).
        { apply same_ok. pose proof (build_plan_rel_same reg e n) as S1. pose proof (build_plan_rel_same reg e n0) as S2.
          rewrite E1 in S1. rewrite Hx in S2. destruct (build_plan_rel reg e (unnumber n0)); cbn in S2; try contradiction. subst.
          exact S1. }
        rewrite Hn. cbn [rbind]. rewrite (IH l xs Hxs E2). reflexivity. }
    rewrite Hl. reflexivity.
  Qed.
End Plans.
