(** Whole plans. *)
From Coq Require Import String List NArith ZArith Bool Lia Sorted.
From Verif Require Import Base BaseFacts Names SimpleExt SimpleExtFacts Out Types Literals Exprs ExprEq ExtArgs Registry Rels ExtLines Lines LinesFacts Tree Structural Version Plan
  SpecMeaning MeaningFacts MeaningTimes SpecText TextDecls SpecNotation NotationBase NotationExprs SpecLayout LayoutRels LayoutHeads LayoutTree.
Import ListNotations.
Local Open Scope string_scope.
Local Open Scope list_scope.
Local Open Scope nat_scope.

(** ** Declarations *)

Lemma stored_iff k s n : norm_name k s = Some n <-> stored_name k s n.
Proof.
  split.
  - intros H. destruct k; cbn [norm_name] in H.
    + destruct (starts_with (L "u!") s) eqn:E; [discriminate|]. injection H as <-. apply sn_plain. now apply starts_with_not.
    + destruct (strip_prefix (L "u!") s) as [r|] eqn:E; injection H as <-.
      * apply strip_prefix_spec in E as ->. apply sn_marked.
      * apply sn_plain. apply starts_with_not. unfold starts_with. now rewrite E.
    + destruct (starts_with (L "u!") s) eqn:E; [discriminate|]. injection H as <-. apply sn_plain. now apply starts_with_not.
  - intros [m|k' m H].
    + unfold norm_name. now rewrite strip_prefix_app.
    + apply starts_with_not in H. unfold norm_name. rewrite H. unfold starts_with in H. destruct k'; auto. now destruct (strip_prefix (L "u!") m).
Qed.
Lemma from_urns_iff us : forall e e', from_urns e us = (e', []) <-> adds e (map inl us) e'.
Proof.
  induction us as [|u us IH]; intros e e'; cbn [from_urns map].
  - split; [intros [= <-]; constructor|]. intros H. now inversion H; subst.
  - pose proof (add_urn_iff e u) as A. destruct (add_extension_urn e (u_urn u) (u_anchor u)) as [e1 [er|]]; cbn [lift_insert] in A.
    + destruct (from_urns e1 us) as [e2 ers]. split; [discriminate|]. intros H. inversion H as [|? ? e3 ? ? H1 H2]; subst. apply A in H1. discriminate.
    + destruct (from_urns e1 us) as [e2 ers] eqn:E. cbn [opt_list app]. split.
      * intros [= <- ->]. econstructor; [now apply A|now apply IH].
      * intros H. inversion H as [|? ? e3 ? ? H1 H2]; subst. apply A in H1 as [= <-]. apply IH in H2. congruence.
Qed.
Lemma from_decls_iff ds : forall e e', from_decls e ds = (e', []) <-> exists l, Forall2 stored ds l /\ adds e (map inr l) e'.
Proof.
  induction ds as [|d ds IH]; intros e e'; cbn [from_decls].
  - split; [intros [= <-]; exists []; split; constructor|]. intros (l & H & H'). inversion H; subst. now inversion H'; subst.
  - destruct d as [d|].
    2: { destruct (from_decls e ds) as [e2 ers]. split; [discriminate|]. intros (l & H & _). inversion H as [|? ? ? ? (n & Hn & _)]; subst. discriminate. }
    destruct (norm_name (d_kind d) (d_name d)) as [n|] eqn:N.
    + pose proof (fun e' => add_decl_iff e (mk_decl (d_kind d) (d_urn d) (d_anchor d) n) (d_name d) e' N) as A. cbn [d_kind d_urn d_anchor] in A.
      assert (S : forall d', stored (Some d) d' <-> d' = mk_decl (d_kind d) (d_urn d) (d_anchor d) n).
      { intros d'. unfold stored. split.
        - intros (m & [= ->] & H). cbn [d_kind d_name d_urn d_anchor] in *. apply stored_iff in H. destruct d'; cbn in *. congruence.
        - intros ->. exists (d_name d). cbn [d_kind d_name d_urn d_anchor]. split; [now destruct d|]. now apply stored_iff. }
      destruct (add_extension e (d_kind d) (d_urn d) (d_anchor d) (d_name d)) as [e1 [er|]]; cbn [lift_insert] in A; destruct (from_decls e1 ds) as [e2 ers] eqn:E.
      * split; [discriminate|]. intros (l & H & H'). inversion H as [|? d' ? l' H1 H2]; subst. apply S in H1 as ->. cbn [map] in H'. inversion H' as [|? ? e3 ? ? H3 H4]; subst. apply A in H3. discriminate.
      * cbn [opt_list app]. split.
        -- intros [= <- ->]. apply IH in E as (l & H & H'). eexists (_ :: l). split; [constructor; [now apply S|exact H]|]. cbn [map]. econstructor; [now apply A|exact H'].
        -- intros (l & H & H'). inversion H as [|? d' ? l' H1 H2]; subst. apply S in H1 as ->. cbn [map] in H'. inversion H' as [|? ? e3 ? ? H3 H4]; subst. apply A in H3 as [= <-].
           assert (K : from_decls e1 ds = (e', [])) by (apply IH; eauto). congruence.
    + unfold add_extension. rewrite N. destruct (from_decls e ds) as [e2 ers]. split; [discriminate|]. intros (l & H & _). inversion H as [|? d' ? ? (m & [= ->] & Hm)]; subst.
      cbn [d_kind d_name] in *. apply stored_iff in Hm. congruence.
Qed.
Lemma declared_iff us ds e : from_extensions us ds = (e, []) <-> exists es, declarations us ds es /\ coherent es /\ table_of es e.
Proof.
  unfold from_extensions, declarations. destruct (from_urns exts_empty us) as [e1 er1] eqn:E1. destruct (from_decls e1 ds) as [e2 er2] eqn:E2. split.
  - intros [= <- H]. apply app_eq_nil in H as [-> ->]. apply from_urns_iff in E1. apply from_decls_iff in E2 as (l & H & H').
    exists (map inl us ++ map inr l). split; [now exists l|]. apply adds_iff, adds_app. eauto.
  - intros (es & (l & H & ->) & H'). apply adds_iff, adds_app in H' as (e3 & H1 & H2). apply from_urns_iff in H1. rewrite H1 in E1. injection E1 as <- <-.
    assert (K : from_decls e3 ds = (e, [])) by (apply from_decls_iff; eauto). rewrite K in E2. injection E2 as <- <-. reflexivity.
Qed.

(** ** Sections *)

Lemma core_iff s t : core s t <-> t = trim s.
Proof.
  unfold core, trim. split.
  - intros (w & w' & -> & Hw & Hw' & H1 & H2).
    destruct t as [|c t].
    + cbn [app]. assert (E : white (w ++ w')) by (now apply Forall_app). apply white_iff in E.
      assert (T : trim_start (w ++ w') = []) by (apply trim_start_iff; exists (w ++ w'); rewrite app_nil_r; repeat split; auto; now apply white_iff). now rewrite T.
    + assert (T : trim_start (w ++ (c :: t) ++ w') = (c :: t) ++ w').
      { apply trim_start_iff. exists w. repeat split; auto. cbn. specialize (H1 c t eq_refl). destruct (is_ws c) eqn:E; auto. now apply white_space_iff in E. }
      rewrite T. unfold trim_end. rewrite trim_end_by_drop by now apply white_iff.
      destruct (trim_end_by_split is_ws (c :: t)) as (v & Ev & Hv). destruct v as [|x v _] using rev_ind; [rewrite app_nil_r in Ev; exact Ev|].
      exfalso. rewrite app_assoc in Ev. apply (H2 _ _ Ev). apply white_space_iff. rewrite forallb_app in Hv. apply andb_true_iff in Hv as [_ Hv]. cbn in Hv. now rewrite andb_true_r in Hv.
  - intros ->. destruct (proj1 (trim_start_iff s _) eq_refl) as (w & E & Hw & Hs). destruct (trim_end_by_split is_ws (trim_start s)) as (w' & E' & Hw').
    exists w, w'. split; [now rewrite E at 1; rewrite E' at 1|]. split; [exact Hw|]. split; [now apply white_iff|]. split.
    + intros c r Er K. apply white_space_iff in K. unfold trim_end in Er. rewrite Er in E'. rewrite E' in Hs. cbn in Hs. congruence.
    + intros r c Er K. apply white_space_iff in K. pose proof (trim_end_idem is_ws (trim_start s)) as I. unfold trim_end in Er. rewrite Er in I.
      rewrite trim_end_by_drop in I by (cbn; now rewrite K). destruct (trim_end_by_split is_ws r) as (v & Ev & _). rewrite I in Ev. apply (f_equal (@length N)) in Ev. rewrite !app_length in Ev. cbn in Ev. lia.
Qed.
Lemma detail_iff op key v ls : detail_lines op key v ls <-> ls = version_detail (op_indent op) (L key) v.
Proof.
  unfold version_detail. destruct v as [|c v].
  - split; [now inversion 1|]. intros ->. constructor.
  - split; [inversion 1 as [|? t H1 H2]; subst; now apply core_iff in H2 as ->|]. intros ->. constructor; [discriminate|]. now apply core_iff.
Qed.
Lemma version_iff op v ls : SpecLayout.version_lines op v ls <-> ls = Version.version_lines (op_indent op) v.
Proof.
  destruct v as [[a b c p g]|]; cbn [Version.version_lines].
  2: { split; [now inversion 1|]. intros ->. constructor. }
  assert (D : version_is_default (mk_version a b c p g) = true <-> mk_version a b c p g = mk_version 0 0 0 [] []).
  { unfold version_is_default. cbn. split.
    - intros H. destruct (N.eqb_spec a 0), (N.eqb_spec b 0), (N.eqb_spec c 0), p, g; cbn in H; congruence.
    - intros [= -> -> -> -> ->]. reflexivity. }
  destruct (version_is_default (mk_version a b c p g)).
  - destruct D as [D _]. specialize (D eq_refl). split; [inversion 1; subst; congruence|]. intros ->. rewrite D. constructor.
  - assert (N : mk_version a b c p g <> mk_version 0 0 0 [] []) by (intros K; apply D in K; discriminate). split.
    + inversion 1 as [|E|? ? ? ? ? x y z ps gs H0 H1 H2 H3 H4 H5]; subst; [congruence|]. apply numeral_N in H1 as ->. apply numeral_N in H2 as ->. apply numeral_N in H3 as ->.
      apply detail_iff in H4 as ->. apply detail_iff in H5 as ->. unfold Version.version_header. cbn [v_major v_minor v_patch v_producer v_git]. reflexivity.
    + intros ->. unfold Version.version_header. cbn [v_major v_minor v_patch v_producer v_git]. 
      replace (hdr_version ++ L " " ++ show_N a ++ L "." ++ show_N b ++ L "." ++ show_N c) with (L "=== Version " ++ show_N a ++ L "." ++ show_N b ++ L "." ++ show_N c) by reflexivity.
      apply vl_some; auto; try (now apply numeral_N); now apply detail_iff.
Qed.
Lemma aligned_iff a s : aligned a s <-> s = pad3 (show_N a).
Proof.
  unfold aligned. assert (P : forall x, repeat 32%N (3 - length x) ++ x = pad3 x) by (intros [|a1 [|a2 [|a3 r]]]; reflexivity). split.
  - intros (x & H & ->). apply numeral_N in H as ->. apply P.
  - intros ->. exists (show_N a). split; [now apply numeral_N|]. symmetry. apply P.
Qed.
Lemma urn_shown_iff op u s : urn_shown op u s <-> s = SimpleExt.urn_line (op_indent op) u.
Proof. unfold urn_shown, SimpleExt.urn_line. setoid_rewrite aligned_iff. split; [intros (x & -> & ->); reflexivity|]. intros ->. eauto. Qed.
Lemma declaration_shown_iff op d s : declaration_shown op d s <-> s = decl_line (op_indent op) d.
Proof.
  destruct d as [[a k] [u n]]. unfold declaration_shown, decl_line. cbn [fst snd]. setoid_rewrite aligned_iff. split; [intros (x & y & -> & -> & ->); reflexivity|]. intros ->. eauto.
Qed.
Lemma only_filter {A} (P : A -> Prop) f l m : (forall x, f x = true <-> P x) -> only P l m <-> m = filter f l.
Proof.
  intros H. split.
  - induction 1 as [|x l m Hx Hm IH|x l m Hx Hm IH]; cbn [filter]; auto.
    + apply H in Hx. rewrite Hx. now f_equal.
    + destruct (f x) eqn:E; auto. now apply H in E.
  - intros ->. induction l as [|x l IH]; cbn [filter]; [constructor|]. destruct (f x) eqn:E; constructor; auto; [now apply H|]. intros K. apply H in K. congruence.
Qed.
Lemma shown_map {A} (P : A -> list N -> Prop) f l ss : (forall a s, P a s <-> s = f a) -> Forall2 P l ss <-> ss = map f l.
Proof.
  intros H. revert ss. induction l as [|a l IH]; intros ss; cbn [map]; [split; [now inversion 1|intros ->; constructor]|]. split.
  - inversion 1 as [|? x ? xs Hx Hxs]; subst. apply H in Hx as ->. apply IH in Hxs as ->. reflexivity.
  - intros ->. constructor; [now apply H|now apply IH].
Qed.
Lemma section_map {A} h (f : A -> list N) l : section h (map f l) = match l with [] => [] | l => L h :: map f l end.
Proof. now destruct l. Qed.
Lemma extension_lines_iff op e ls : extension_lines op e ls <-> ls = exts_lines (op_indent op) e.
Proof.
  assert (K : forall k m, (exists l, only (fun d : (N * kind) * (N * list N) => snd (fst d) = k) (e_decls e) l /\ Forall2 (declaration_shown op) l m)
    <-> m = map (decl_line (op_indent op)) (filter (fun x : (N * kind) * (N * list N) => kind_eqb (snd (fst x)) k) (e_decls e))).
  { intros k m. assert (Q : forall x : (N * kind) * (N * list N), kind_eqb (snd (fst x)) k = true <-> snd (fst x) = k).
    { intros x. destruct (snd (fst x)), k; cbn; split; congruence. }
    setoid_rewrite (only_filter _ _ _ _ Q). setoid_rewrite (shown_map _ _ _ _ (declaration_shown_iff op)). split; [intros (l & -> & ->); reflexivity|]. intros ->. eauto. }
  assert (X : exts_lines (op_indent op) e = section "=== Extensions" (section "URNs:" (map (SimpleExt.urn_line (op_indent op)) (e_urns e)) ++
    section "Functions:" (map (decl_line (op_indent op)) (filter (fun x : (N * kind) * (N * list N) => kind_eqb (snd (fst x)) KFunction) (e_decls e))) ++
    section "Types:" (map (decl_line (op_indent op)) (filter (fun x : (N * kind) * (N * list N) => kind_eqb (snd (fst x)) KType) (e_decls e))) ++
    section "Type Variations:" (map (decl_line (op_indent op)) (filter (fun x : (N * kind) * (N * list N) => kind_eqb (snd (fst x)) KTypeVariation) (e_decls e))))).
  { rewrite !section_map. unfold exts_lines. change (match e_urns e with [] => [] | l => hdr_urns :: map (SimpleExt.urn_line (op_indent op)) l end) with
      (match e_urns e with [] => [] | l => L "URNs:" :: map (SimpleExt.urn_line (op_indent op)) l end). unfold kind_lines.
    assert (S : forall h ls, ls <> [] -> section h ls = L h :: ls) by (intros h [|]; [congruence|reflexivity]).
    assert (F : forall d, In d (e_decls e) -> filter (fun x : (N * kind) * (N * list N) => kind_eqb (snd (fst x)) (snd (fst d))) (e_decls e) <> []).
    { intros d Hd E. assert (I : In d []); [rewrite <- E; apply filter_In; split; [exact Hd|now destruct (snd (fst d))]|destruct I]. }
    unfold exts_is_empty. destruct (e_urns e) as [|u us].
    - destruct (e_decls e) as [|[[a k] x] ds] eqn:D; [reflexivity|]. specialize (F _ (or_introl eq_refl)). cbn [fst snd] in F. 
      etransitivity; [|symmetry; apply S].
      { unfold hdr_extensions, hdr_kind. do 2 f_equal; repeat match goal with |- context [filter ?f ?l] => destruct (filter f l) end; reflexivity. }
      intros Z. apply F. cbn [app] in Z. destruct k; (repeat apply app_eq_nil in Z as [? Z]); match goal with |- filter ?f ?l = [] => destruct (filter f l); [reflexivity|discriminate] end.
    - repeat match goal with |- context [filter ?f ?l] => destruct (filter f l) end; reflexivity. }
  unfold extension_lines. setoid_rewrite K. setoid_rewrite (shown_map _ _ _ _ (urn_shown_iff op)). rewrite X. split.
  - intros (us & fs & ts & vs & -> & -> & -> & -> & ->). reflexivity.
  - intros ->. do 4 eexists. repeat (split; [reflexivity|]). reflexivity.
Qed.

Section Plans.
  Context `{U : Unicode} `{F : Floats}.
  Lemma plan_text_iff reg op p s : clean (format reg op p) s <-> plan_text reg op p s.
  Proof.
    unfold format, plan_text. destruct (from_extensions (pl_urns _ p) (pl_decls _ p)) as [e errs] eqn:E.
    assert (Gap : forall e, (if exts_lines (op_indent op) e then [] else [c_nl]) = (if exts_is_empty e then [] else [c_nl])) by (intros e0; unfold exts_lines; now destruct (exts_is_empty e0)).
    assert (R : wf_exts e -> forall t, clean (relations_out op reg e (pl_rels _ p)) t <-> exists blocks, Forall2 (plan_rel_shown reg op e) (pl_rels _ p) blocks
      /\ t = L "=== Plan" ++ [10%N] ++ join [10; 10]%N (map (join [10%N]) blocks)).
    { intros W t. unfold relations_out. rewrite clean_before. setoid_rewrite clean_sep.
      assert (M : forall ss, Forall2 clean (map (plan_rel_out reg op e) (pl_rels _ p)) ss <-> exists blocks, Forall2 (plan_rel_shown reg op e) (pl_rels _ p) blocks /\ ss = map (join [10%N]) blocks).
      { generalize (pl_rels _ p) as l. induction l as [|r l IH]; intros ss; cbn [map].
        - split; [inversion 1; subst; exists []; split; constructor|]. intros (bs & H & ->). inversion H; subst. constructor.
        - split.
          + inversion 1 as [|? x ? xs Hx Hxs]; subst. apply plan_rel_iff in Hx as (b & Hb & ->); auto. apply IH in Hxs as (bs & Hbs & ->). exists (b :: bs). split; [now constructor|reflexivity].
          + intros (bs & H & ->). inversion H as [|? b ? bs' Hb Hbs]; subst. constructor; [apply plan_rel_iff; auto; now exists b|]. apply IH. now exists bs'. }
      setoid_rewrite M. split.
      - intros (y & (ss & (bs & H & ->) & ->) & ->). exists bs. split; [exact H|]. now rewrite <- app_assoc.
      - intros (bs & H & ->). eexists. split; [exists (map (join [10%N]) bs); split; [now exists bs|reflexivity]|]. now rewrite <- app_assoc. }
    assert (T : forall e bs, lines_text (Version.version_lines (op_indent op) (pl_version _ p)) ++ lines_text (exts_lines (op_indent op) e) ++ (if exts_is_empty e then [] else [c_nl])
        ++ (L "=== Plan" ++ [10%N] ++ join [10; 10]%N (map (join [10%N]) bs)) ++ [c_nl]
      = unlines (Version.version_lines (op_indent op) (pl_version _ p) ++ exts_lines (op_indent op) e ++ (if exts_lines (op_indent op) e then [] else [[]]) ++ [L "=== Plan"])
        ++ join [10; 10]%N (map (join [10%N]) bs) ++ [10%N]).
    { intros e0 bs. unfold lines_text, unlines. rewrite !map_app, !concat_app, <- !app_assoc. do 2 f_equal. rewrite <- Gap. destruct (exts_lines (op_indent op) e0); cbn [map concat app]; rewrite ?app_nil_r, <- ?app_assoc; reflexivity. }
    split.
    - intros H. apply clean_app in H as (x & y & H & H' & ->). destruct H as (H1 & _ & H2). cbn in H1, H2. apply map_eq_nil in H1. subst x errs.
      pose proof E as E'. apply declared_iff in E' as (es & D & C & Tb). pose proof (table_wf _ _ Tb) as W.
      apply clean_before in H' as (y1 & H' & ->). apply clean_before in H' as (y2 & H' & ->). apply clean_before in H' as (y3 & H' & ->). apply clean_after in H' as (y4 & H' & ->).
      apply (R W) in H' as (bs & H' & ->). exists es, e. do 3 eexists. split; [exact D|]. split; [exact C|]. split; [exact Tb|]. split; [now apply version_iff|]. split; [now apply extension_lines_iff|].
      split; [exact H'|]. apply T.
    - intros (es & e' & vls & els & bs & D & C & Tb & Hv & He & Hb & ->). apply version_iff in Hv as ->. apply extension_lines_iff in He as ->.
      assert (K : from_extensions (pl_urns _ p) (pl_decls _ p) = (e', [])) by (apply declared_iff; eauto). rewrite K in E. injection E as <- <-. pose proof (table_wf _ _ Tb) as W.
      apply clean_app. exists []. eexists. split; [split; [|split]; reflexivity|]. split; [|reflexivity]. rewrite <- T.
      do 3 (apply clean_before; eexists; split; [|reflexivity]). apply clean_after. eexists. split; [|reflexivity]. apply (R W). eauto.
  Qed.
End Plans.
