(** Every extension table read from a text can be written. *)
From Coq Require Import String List NArith ZArith Bool Lia PeanoNat ZifyBool ZifyN.
From Verif Require Import Base BaseFacts OMap Peg PegFacts Names NamesFacts SimpleExt SpecExt Out Anchors
  AnchorsFacts SimpleExtFacts FromExtFacts ExtLines SpecExtLines ExtLinesFacts Lines LinesFacts Tree Structural
  SpecLines StructuralFacts LineView ReadFacts PreambleFacts.
Import ListNotations.

Lemma pbind_inv {A B} (p : peg A) (f : A -> peg B) s x : pbind p f s = Some x -> exists a r, p s = Some (a, r) /\ f a r = Some x.
Proof. unfold pbind. destruct (p s) as [[a r]|]; [eauto|discriminate]. Qed.
Lemma pthen_inv {A B} (p : peg A) (q : peg B) s x : pthen p q s = Some x -> exists a r, p s = Some (a, r) /\ q r = Some x.
Proof. apply pbind_inv. Qed.
Lemma popt_inv {A} (p : peg A) s o r : popt p s = Some (o, r) -> match o with Some a => p s = Some (a, r) | None => p s = None /\ r = s end.
Proof. unfold popt. destruct (p s) as [[a r']|]; intros [= <- <-]; auto. Qed.
Lemma pret_inv {A} (a : A) s x : pret a s = Some x -> x = (a, s).
Proof. unfold pret. congruence. Qed.

(** ** Names *)

Lemma short_name_inv s x r : g_short_arg_name s = Some (x, r) -> short_name_ok x = true.
Proof.
  unfold g_short_arg_name. intros H. apply pbind_inv in H as (c & r1 & H1 & H). apply pbind_inv in H as (t & r2 & H2 & H).
  apply pret_inv in H. injection H as -> ->. unfold pchar in H1. destruct s as [|c' s]; [discriminate|].
  destruct (is_alpha c') eqn:E; [|discriminate]. injection H1 as -> ->. unfold pwhile in H2.
  destruct (span is_alnum r1) as [u v] eqn:Es. injection H2 as <- <-. apply span_spec in Es as (_ & H & _).
  cbn [short_name_ok]. now rewrite E, H.
Qed.
Lemma arg_type_inv s x r : g_short_arg_type s = Some (x, r) -> arg_type_ok x = true.
Proof.
  unfold g_short_arg_type, palt. destruct (pthen _ _ s) as [y|] eqn:E.
  - intros [= ->]. apply pthen_inv in E as (u & r1 & _ & E). apply pbind_inv in E as (n & r2 & E1 & E2).
    apply pret_inv in E2. injection E2 as -> ->. change (short_name_ok n = true). eauto using short_name_inv.
  - intros H. apply short_name_inv in H. unfold arg_type_ok. destruct (strip_prefix (L "u!") x) as [t|] eqn:Ex; auto.
    apply strip_prefix_spec in Ex. subst x. cbn in H. discriminate.
Qed.
Lemma pstar_inv {A} (p : peg A) (P : A -> Prop) : strict p -> (forall s a r, p s = Some (a, r) -> P a) ->
  forall n s l r, length s <= n -> pstar p s = Some (l, r) -> Forall P l.
Proof.
  intros Hs HP. induction n as [|n IH]; intros s l r Hn H; rewrite pstar_eq in H by auto;
    destruct (p s) as [[a t]|] eqn:E; try (injection H as <- <-; constructor).
  - specialize (Hs _ _ _ E). lia.
  - pose proof (Hs _ _ _ E). destruct (pstar p t) as [[l' r']|] eqn:Et; [|discriminate]. injection H as <- <-.
    constructor; eauto. eapply IH; [|exact Et]. lia.
Qed.
Lemma split_on_free c x : contains_char c x = false -> split_on c x = [x].
Proof.
  induction x as [|y x IH]; auto. cbn [contains_char split_on]. intros H. bool_hyps. now rewrite H, IH.
Qed.
Lemma split_on_cons c x t : contains_char c x = false -> split_on c (x ++ c :: t) = x :: split_on c t.
Proof.
  induction x as [|y x IH]; cbn [contains_char app split_on]; intros H; [now rewrite N.eqb_refl|]. bool_hyps. now rewrite H, IH.
Qed.
Lemma short_name_free x : short_name_ok x = true -> contains_char c_under x = false.
Proof.
  destruct x as [|c x]; [discriminate|]. cbn [short_name_ok contains_char]. intros H. bool_hyps. apply orb_false_iff. split.
  - unfold c_under. chars.
  - eapply contains_char_class; [exact H0|reflexivity].
Qed.
Lemma arg_type_free x : arg_type_ok x = true -> contains_char c_under x = false.
Proof.
  unfold arg_type_ok. destruct (strip_prefix (L "u!") x) as [t|] eqn:E; [|apply short_name_free].
  apply strip_prefix_spec in E. subst x. intros H. rewrite contains_char_app, (short_name_free t H). reflexivity.
Qed.
Lemma split_signature l : forall a, arg_type_ok a = true -> Forall (fun x => arg_type_ok x = true) l ->
  split_on c_under (a ++ concat (map (fun x => L "_" ++ x) l)) = a :: l.
Proof.
  induction l as [|b l IH]; intros a Ha Hl.
  - cbn. rewrite app_nil_r. now apply split_on_free, arg_type_free.
  - inversion Hl; subst. cbn [map concat]. change ((L "_" ++ b) ++ ?t) with (c_under :: b ++ t).
    rewrite split_on_cons by now apply arg_type_free. now rewrite IH.
Qed.
Lemma identifier_no_colon b : is_identifier b = true -> contains_char c_colon b = false.
Proof.
  destruct b as [|c b]; [discriminate|]. cbn [is_identifier contains_char]. intros H. bool_hyps. apply orb_false_iff. split.
  - unfold c_colon. chars.
  - eapply contains_char_class; [exact H0|reflexivity].
Qed.
Lemma function_signature_inv s n r : g_function_signature s = Some (n, r) -> fn_name_ok n = true.
Proof.
  unfold g_function_signature. intros H. apply pbind_inv in H as (b & r1 & H1 & H). apply pbind_inv in H as (x & r2 & H2 & H).
  apply pret_inv in H. injection H as -> ->. apply g_identifier_spec in H1 as (_ & Hb & _).
  pose proof (identifier_no_colon b Hb) as Hc.
  unfold g_signature_suffix in H2. apply pbind_inv in H2 as (o & r3 & H2 & H3). apply pret_inv in H3. injection H3 as -> ->.
  apply popt_inv in H2. unfold fn_name_ok. destruct o as [[a|]|].
  - change (b ++ L ":" ++ a) with (b ++ c_colon :: a). rewrite split_at_char_app by auto. 
    apply pthen_inv in H2 as (u & r4 & _ & H2). apply popt_inv in H2. unfold g_argument_signature in H2.
    apply pbind_inv in H2 as (y & r5 & H4 & H2). apply pbind_inv in H2 as (l & r6 & H5 & H2). apply pret_inv in H2.
    assert (Ea : a = y ++ concat (map (fun x => L "_" ++ x) l)) by congruence. subst a. clear H2.
    apply arg_type_inv in H4.
    assert (Hl : Forall (fun x => arg_type_ok x = true) l).
    { eapply (pstar_inv _ _); [| |apply le_n|exact H5]; cbv beta.
      - apply strict_then_l; [apply strict_tok; cbn; lia|apply strict_shrinks, strict_short_arg_type].
      - intros s0 a r0 H. apply pthen_inv in H as (? & ? & _ & H). eauto using arg_type_inv. }
    pose proof (split_signature l y H4 Hl) as Es. rewrite Es. cbn [forallb]. rewrite H4, Hb.
    destruct (y ++ _); auto. cbn [andb]. apply forallb_forall. now apply Forall_forall.
  - change (b ++ L ":") with (b ++ c_colon :: []). rewrite split_at_char_app by auto. exact Hb.
  - rewrite app_nil_r. apply split_at_char_none in Hc. now rewrite Hc.
Qed.

(** ** Lines *)

Lemma parse_u32_bound s v : parse_u32 s = Some v -> is_u32 v = true.
Proof.
  unfold parse_u32, is_u32. destruct (read_N _) as [n|]; [|discriminate].
  destruct (_ <=? _)%Z eqn:E; [|discriminate]. intros [= <-]. unfold u32_max in E. lia.
Qed.
Lemma unwrap_ok {A} m (o : option A) v : unwrap (E := perr) m o = Ok v -> o = Some v.
Proof. destruct o; cbn; congruence. Qed.

Lemma trim_suffix a b : trim_end (a ++ b) = a ++ b -> trim_end b = b.
Proof.
  induction a as [|c a IH]; auto. cbn [app]. intros H. apply IH. unfold trim_end in H |- *. cbn [trim_end_by] in H.
  destruct (trim_end_by is_ws (a ++ b)); [destruct (is_ws c)|]; congruence.
Qed.
Lemma indented_suffix raw i s : indented raw = (i, s) -> trim_end s = s /\ exists a, trim_end raw = a ++ s.
Proof.
  unfold indented. intros [= _ <-]. set (t := trim_end raw). set (k := _ * 2).
  pose proof (firstn_skipn k t) as E. split; [|eexists; symmetry; exact E].
  apply (trim_suffix (firstn k t)). rewrite E. unfold t, trim_end. apply trim_end_idem.
Qed.
Lemma indented_free raw i s : nl_free raw -> indented raw = (i, s) -> nl_free s /\ trim_end s = s.
Proof.
  intros Hf H. destruct (indented_suffix _ _ _ H) as (Ht & a & Ea). split; auto. unfold nl_free in *.
  destruct (trim_end_by_split is_ws raw) as (w & Ew & _). fold trim_end in Ew. rewrite Ew, contains_char_app, Ea, contains_char_app in Hf.
  bool_hyps. auto.
Qed.

Lemma integer_suffix t v r : g_integer t = Some (v, r) -> exists z, t = z ++ r.
Proof.
  unfold g_integer. intros H. apply pbind_inv in H as (o & r1 & H1 & H). apply popt_inv in H1.
  apply pbind_inv in H as (ds & r2 & H2 & H). apply pret_inv in H. assert (r = r2) by congruence. subst r2.
  unfold pwhile1 in H2. destruct (span is_digit r1) as [x y] eqn:Ez. destruct x as [|c x]; [discriminate|].
  assert (y = r) by congruence. subst y. apply span_spec in Ez as (-> & _). destruct o.
  - apply ptok_spec in H1. subst t. exists (L "-" ++ c :: x). now rewrite <- app_assoc.
  - destruct H1 as [_ <-]. now exists (c :: x).
Qed.
Lemma sp_suffix t v r : sp t = Some (v, r) -> exists z, t = z ++ r.
Proof.
  unfold sp, pmap, pwhile. destruct (span _ t) as [z w] eqn:Ez. intros [= _ <-].
  apply span_spec in Ez as (-> & _). eauto.
Qed.
Lemma urn_inv s d : nl_free s -> trim_end s = s -> parse_urn_declaration s = Ok d -> is_u32 (u_anchor d) = true /\ urn_ok (u_urn d) = true.
Proof.
  intros Hf Ht. unfold parse_urn_declaration. destruct (g_urn_declaration s) as [[[a u] [|]]|] eqn:E; try discriminate.
  intros H. apply rmap_ok in H as (v & Hv & ->). apply unwrap_ok in Hv. cbn [u_anchor u_urn]. split; [eauto using parse_u32_bound|].
  unfold g_urn_declaration in E. apply pbind_inv in E as (a' & r1 & E1 & E). apply pthen_inv in E as (t2 & r2 & E2 & E).
  apply pthen_inv in E as (t3 & r3 & E3 & E). apply pbind_inv in E as (u' & r4 & E4 & E). apply pret_inv in E.
  assert (u' = u) by congruence. assert (r4 = []) by congruence. subst u' r4. clear E.
  unfold g_urn, pwhile1 in E4. destruct (span _ r3) as [x y] eqn:Es. destruct x as [|c x]; [discriminate|].
  assert (y = []) by congruence. assert (u = c :: x) by congruence. subst y u. clear E4.
  apply span_spec in Es as (-> & Hx & _). rewrite app_nil_r in *.
  assert (Hs : exists p, s = p ++ c :: x).
  {
    unfold g_urn_anchor in E1. apply pthen_inv in E1 as (? & q1 & F1 & E1). apply pthen_inv in E1 as (? & q2 & F2 & E1).
    apply ptok_spec in F1, E2. apply sp_suffix in F2 as (z2 & ->). apply integer_suffix in E1 as (z3 & ->). apply sp_suffix in E3 as (z4 & ->). subst.
    exists (L "@" ++ z2 ++ z3 ++ L ":" ++ z4). now rewrite <- !app_assoc. }
  destruct Hs as (p & ->). apply trim_suffix in Ht. unfold nl_free in Hf. rewrite contains_char_app in Hf. bool_hyps.
  unfold urn_ok. change 32%N with c_sp. change 10%N with c_nl. rewrite H0, Ht, streqb_refl.
  rewrite (contains_char_class (fun c => negb (c =? c_sp)%N) c_sp); [reflexivity|exact Hx|reflexivity].
Qed.

Lemma decl_inv k s d : parse_declaration k s = Ok d ->
  is_u32 (d_anchor d) = true /\ is_u32 (d_urn d) = true /\
  exists n, norm_name k (d_name d) = Some n /\ decl_name_ok k n = true.
Proof.
  unfold parse_declaration. destruct (g_simple_extension s) as [[[[a u] n] [|]]|] eqn:E; try discriminate.
  intros H. apply rbind_ok in H as (a' & Ha & H). apply rbind_ok in H as (u' & Hu & H). apply unwrap_ok in Ha, Hu.
  destruct (negb (kind_eqb k KType) && starts_with (L "u!") n) eqn:B1; [discriminate|].
  destruct (negb (kind_eqb k KFunction) && contains_char c_colon n) eqn:B2; [discriminate|].
  injection H as <-. cbn [d_anchor d_urn d_name]. split; [eauto using parse_u32_bound|]. split; [eauto using parse_u32_bound|].
  assert (Hn : exists m, fn_name_ok m = true /\ (n = m \/ n = L "u!" ++ m)).
  { unfold g_simple_extension in E. apply pbind_inv in E as (? & ? & _ & E). apply pthen_inv in E as (? & ? & _ & E).
    apply pbind_inv in E as (? & ? & _ & E). apply pthen_inv in E as (? & ? & _ & E). apply pthen_inv in E as (? & ? & _ & E).
    apply pthen_inv in E as (? & ? & _ & E). apply pbind_inv in E as (n' & r & E1 & E). apply pret_inv in E.
    assert (n' = n) by congruence. subst n'. clear E. unfold g_simple_extension_name in E1.
    apply pbind_inv in E1 as (o & ? & _ & E1). apply pbind_inv in E1 as (m & ? & E2 & E1). apply pret_inv in E1.
    exists m. split; [eauto using function_signature_inv|]. destruct o; [right|left]; congruence. }
  destruct Hn as (m & Hm & Hn). pose proof (not_u_bang m Hm) as Hb.
  assert (Hid : contains_char c_colon m = false -> is_identifier m = true).
  { intros Hc. unfold fn_name_ok in Hm. apply split_at_char_none in Hc. now rewrite Hc in Hm. }
  assert (Hs : starts_with (L "u!") m = false) by (unfold starts_with; now rewrite Hb).
  assert (Hs2 : starts_with (L "u!") (L "u!" ++ m) = true) by (unfold starts_with; now rewrite (strip_prefix_app (L "u!"))).
  assert (Hc2 : contains_char c_colon (L "u!" ++ m) = contains_char c_colon m) by reflexivity.
  destruct k; [change (negb (kind_eqb KFunction KType)) with true in B1
              |change (negb (kind_eqb KType KFunction)) with true in B2
              |change (negb (kind_eqb KTypeVariation KType)) with true in B1; change (negb (kind_eqb KTypeVariation KFunction)) with true in B2];
    cbn [andb decl_name_ok norm_name] in *; exists m; destruct Hn; subst n; try congruence.
  - now rewrite Hs.
  - rewrite Hb. split; auto.
  - rewrite (strip_prefix_app (L "u!")). auto.
  - rewrite Hs. split; auto.
Qed.

(** ** The tables a parser can hold *)

Lemma exts_writable_spec e : exts_writable e = true <->
  (forall x, In x (e_urns e) -> urn_entry_ok x = true) /\ (forall x, In x (e_decls e) -> decl_entry_ok e x = true).
Proof. unfold exts_writable. rewrite andb_true_iff, !forallb_forall. reflexivity. Qed.

Definition xp_fine (x : ext_parser) : Prop := wf_exts (xp_exts x) /\ exts_writable (xp_exts x) = true.
Lemma decl_entry_more e e' x : (forall u, urn_get e u <> None -> urn_get e' u <> None) -> decl_entry_ok e x = true -> decl_entry_ok e' x = true.
Proof.
  destruct x as [[a k] [u n]]. unfold decl_entry_ok. intros H Hx. bool_hyps. rewrite H0, H3, H2. cbn [andb].
  specialize (H u). destruct (urn_get e' u); auto. destruct (urn_get e u); [|discriminate]. exfalso. apply H; congruence.
Qed.
Lemma ext_line_fine x l y : nl_free l -> ext_parse_line x (indented l) = Ok y -> xp_fine x -> xp_fine y.
Proof.
  intros Hl H [W Hw]. destruct (indented l) as [i s] eqn:Ei. destruct (indented_free _ _ _ Hl Ei) as [Hf Ht].
  unfold ext_parse_line in H. destruct s as [|c s]; [injection H as <-; now split|]. set (t := c :: s) in *.
  assert (Hsub : forall z, parse_subsection x i t = Ok z -> xp_fine z).
  { intros z. unfold parse_subsection. destruct i; [|discriminate].
    repeat match goal with |- context [if ?b then _ else _] => destruct b end; intros [= <-]; now split. }
  destruct (xp_state x) as [| |k]; [now apply Hsub| |]; (destruct i as [|[|i]]; [now apply Hsub| |discriminate]).
  - apply rbind_ok in H as (d & Hd & H). apply rbind_ok in H as (e & He & H). injection H as <-. unfold xp_fine. cbn [xp_exts].
    assert (Hd' : parse_urn_declaration t = Ok d) by (destruct (parse_urn_declaration t); cbn in Hd; congruence).
    destruct (urn_inv t d Hf Ht Hd') as [A1 A2].
    pose proof (wf_add_urn (xp_exts x) (u_urn d) (u_anchor d) W) as W'. unfold add_extension_urn in *.
    destruct (urn_get (xp_exts x) (u_anchor d)) eqn:Eg; [discriminate|]. injection He as <-. split; [exact W'|]. cbn [fst] in W'.
    apply exts_writable_spec in Hw as [H1 H2]. apply exts_writable_spec. cbn [e_urns e_decls]. split.
    + intros z Hz. apply oput_in in Hz as [->|Hz]; auto using ord_N. unfold urn_entry_ok. cbn [fst snd]. now rewrite A1, A2.
    + intros z Hz. eapply decl_entry_more; [|now apply H2]. intros u Hu. unfold urn_get in *. cbn [e_urns].
      destruct (N.eq_dec u (u_anchor d)) as [->|Hne]; [rewrite oget_put_eq by apply ord_N; discriminate|].
      rewrite oget_put_neq; auto using ord_N. apply W.
  - apply rbind_ok in H as (d & Hd & H). apply rbind_ok in H as (e & He & H). injection H as <-. unfold xp_fine. cbn [xp_exts].
    assert (Hd' : parse_declaration k t = Ok d) by (destruct (parse_declaration k t); cbn in Hd; congruence).
    destruct (decl_inv k t d Hd') as (A1 & A2 & n & A3 & A4).
    pose proof (wf_add (xp_exts x) k (d_urn d) (d_anchor d) (d_name d) W) as W'. unfold add_extension in *.
    rewrite A3 in *. destruct (decl_get (xp_exts x) k (d_anchor d)) as [[]|] eqn:Eg; [discriminate|].
    destruct (urn_get (xp_exts x) (d_urn d)) eqn:Eu; [|discriminate]. injection He as <-. split; [exact W'|]. cbn [fst] in W'.
    apply exts_writable_spec in Hw as [H1 H2]. apply exts_writable_spec. cbn [e_urns e_decls]. split; [exact H1|].
    intros z Hz. apply oput_in in Hz as [->|Hz]; auto using ord_key.
    + unfold decl_entry_ok. rewrite A1, A2, A4. unfold urn_get in *. cbn [e_urns andb]. now rewrite Eu.
    + apply (decl_entry_more (xp_exts x)); auto.
Qed.

Section Parser.
  Variables R A : Type.
  Variable parse_root : list N -> pres (R + A).
  Variable parse_node : list N -> pres (R + A).

  Lemma step_fine p n l p' : nl_free l \/ Structural.in_plan R A p = true -> StructuralFacts.step R A parse_root parse_node p n l = Ok p' ->
    xp_fine (ps_ext _ _ p) -> xp_fine (ps_ext _ _ p').
  Proof.
    intros Hl. unfold StructuralFacts.step. destruct (blank l); [congruence|]. unfold Structural.parse_line.
    destruct (indented l) as [i s] eqn:Ei. destruct (match i with 0 => starts_with (L "===") s | _ => false end).
    - intros H. apply rbind_ok in H as (nv & _ & H). destruct (_ <=? _); [discriminate|]. now injection H as <-.
    - destruct (ps_state R A p) eqn:Es.
      + destruct i; [destruct (trim s)|]; intros [= <-]; auto.
      + destruct i as [|[|i]]; [destruct (trim s)| |]; try discriminate; [now intros [= <-]|].
        intros H. apply rbind_ok in H as (v & _ & H). now injection H as <-.
      + intros H F. apply rbind_ok in H as (x & Hx & H). injection H as <-. cbn [ps_ext].
        destruct Hl as [Hl|Hl]; [|unfold Structural.in_plan in Hl; rewrite Es in Hl; discriminate].
        eapply ext_line_fine; [exact Hl| |exact F]. rewrite Ei.
        destruct (ext_parse_line (ps_ext R A p) (i, s)); cbn in Hx; congruence.
      + intros H F. apply rbind_ok in H as (x & Hx & H). apply rbind_ok in H as (t & _ & H). now injection H as <-.
  Qed.

  Lemma prest_fine ls : forall m p n s p', length ls <= m -> text_lines s = ls -> StructuralFacts.prest R A parse_root parse_node p n s = Ok p' ->
    xp_fine (ps_ext _ _ p) -> xp_fine (ps_ext _ _ p').
  Proof.
    intros m. revert ls. induction m as [|m IH]; intros [|l ls] p n s p' Hm E H F; cbn [length] in Hm; try lia;
      try (apply first_line_nil in E; subst; rewrite prest_nil in H; congruence).
    pose proof (text_lines_free s) as Hfree. rewrite E in Hfree. inversion Hfree; subst.
    destruct (prest_lines R A parse_root parse_node p n s l ls E) as (rest & Hr & _ & Er). rewrite Er in H. clear Er.
    apply rbind_ok in H as (p1 & H1 & H4).
    assert (F1 : xp_fine (ps_ext _ _ p1)).
    { destruct (Structural.in_plan R A p) eqn:Ep.
      - eapply step_fine; [right; exact Ep|exact H1|exact F].
      - cbn [lines_chunk fst unl map concat] in H1. rewrite app_nil_r, step_nl in H1.
        eapply step_fine; [left; exact H2|exact H1|exact F]. }
    refine (IH _ _ _ _ _ _ Hr H4 F1). pose proof (chunk_app (Structural.in_plan R A p) l ls) as Ha.
    apply (f_equal (@length _)) in Ha. rewrite app_length in Ha. cbn [length] in Ha. lia.
  Qed.
End Parser.
