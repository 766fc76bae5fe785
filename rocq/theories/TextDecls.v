(** The lines of the extension section and the table they give. *)
From Coq Require Import String List NArith ZArith Bool Lia PeanoNat Sorted.
From Verif Require Import Base BaseFacts Peg OMap SimpleExt SimpleExtFacts Out ExtLines Lines LinesFacts SpecLines
  Names Pest SpecGrammar Props_Grammar SpecMeaning MeaningFacts SpecText TextFacts.
Import ListNotations.
Local Open Scope string_scope.
Local Open Scope list_scope.
Local Open Scope nat_scope.

Lemma starts_with_iff p s : starts_with p s = true <-> exists r, s = p ++ r.
Proof.
  unfold starts_with. split.
  - destruct (strip_prefix p s) as [r|] eqn:E; [|discriminate]. apply strip_prefix_spec in E. eauto.
  - intros (r & ->). now rewrite strip_prefix_app.
Qed.
Lemma starts_with_not p s : starts_with p s = false <-> forall r, s <> p ++ r.
Proof.
  split.
  - intros H r E. assert (T : starts_with p s = true) by (apply starts_with_iff; eauto). congruence.
  - intros H. destruct (starts_with p s) eqn:E; auto. apply starts_with_iff in E as (r & E). now apply H in E.
Qed.
Lemma contains_not c s : contains_char c s = false <-> ~ In c s.
Proof.
  induction s as [|x s IH]; cbn [contains_char In]; [tauto|]. rewrite orb_false_iff, IH, N.eqb_neq. intuition congruence.
Qed.

Lemma urn_line_iff l t u : at_level 1 l t -> parse_urn_declaration t = Ok u <-> urn_line l u.
Proof.
  intros Hl. unfold parse_urn_declaration, urn_line.
  pose proof (proj1 C51_declarations) as G. split.
  - intros H. destruct (g_urn_declaration t) as [[[a s] [|x r]]|] eqn:E; try discriminate.
    apply G in E as (tr & Hm & Hp). apply rmap_ok in H as (n & H & ->). apply unwrap_iff in H. apply parse_u32_iff in H.
    exists t, tr, a. auto.
  - intros (t' & tr & a & Hl' & Hm & Hp & Hn). destruct (at_level_fun _ _ _ _ _ Hl Hl') as [_ <-].
    assert (E : g_urn_declaration t = Some ((a, u_urn u), [])) by (apply G; eauto). rewrite E.
    apply parse_u32_iff in Hn. rewrite Hn. now destruct u.
Qed.

Lemma declared_name_iff k s n :
  (negb (kind_eqb k KType) && starts_with (L "u!") s = false /\ negb (kind_eqb k KFunction) && contains_char c_colon s = false
   /\ norm_name k s = Some n) <-> declared_name k s n.
Proof.
  split.
  - intros (H1 & H2 & H3). unfold norm_name in H3.
    destruct k; cbn [kind_eqb kind_rank N.eqb Pos.eqb negb andb] in H1, H2.
    + rewrite H1 in H3. injection H3 as <-. constructor. now apply starts_with_not.
    + apply contains_not in H2. destruct (strip_prefix (L "u!") s) as [r|] eqn:E.
      * apply strip_prefix_spec in E. subst. injection H3 as <-. constructor. intros Hi. apply H2. apply in_or_app. auto.
      * injection H3 as <-. constructor; auto. apply starts_with_not. unfold starts_with. now rewrite E.
    + rewrite H1 in H3. injection H3 as <-. constructor; [now apply starts_with_not|now apply contains_not].
  - intros H. destruct H as [n H|n H|n H1 H2|n H1 H2].
    + apply starts_with_not in H. unfold norm_name. cbn [kind_eqb kind_rank N.eqb Pos.eqb negb andb]. rewrite H. auto.
    + unfold norm_name. change (kind_eqb KType KType) with true. change (kind_eqb KType KFunction) with false. cbn [negb andb].
      rewrite strip_prefix_app. repeat split; auto. apply contains_not. intros Hi. apply in_app_or in Hi as [Hi|Hi]; auto.
      cbn in Hi. destruct Hi as [Hi|[Hi|[]]]; discriminate.
    + unfold norm_name. change (kind_eqb KType KType) with true. change (kind_eqb KType KFunction) with false. cbn [negb andb].
      apply starts_with_not in H1. unfold starts_with in H1. destruct (strip_prefix (L "u!") n); [discriminate|]. repeat split; auto.
      now apply contains_not.
    + apply starts_with_not in H1. apply contains_not in H2. unfold norm_name. cbn [kind_eqb kind_rank N.eqb Pos.eqb negb andb]. unfold c_colon. rewrite H1, H2. auto.
Qed.
Lemma declaration_line_iff k l t d : at_level 1 l t ->
  (exists s, parse_declaration k t = Ok (mk_decl k (d_urn d) (d_anchor d) s) /\ norm_name k s = Some (d_name d)) /\ d_kind d = k
  <-> declaration_line k l d.
Proof.
  intros Hl. unfold parse_declaration, declaration_line. pose proof (proj2 C51_declarations) as G. split.
  - intros [(s & H & Hn) Hk]. destruct (g_simple_extension t) as [[[[a u] n] [|x r]]|] eqn:E; try discriminate.
    apply G in E as (tr & Hm & Hp). apply rbind_ok in H as (za & Ha & H). apply rbind_ok in H as (zu & Hu & H).
    apply unwrap_iff in Ha, Hu. apply parse_u32_iff in Ha, Hu.
    destruct (negb (kind_eqb k KType) && _) eqn:E1; [discriminate|]. destruct (negb (kind_eqb k KFunction) && _) eqn:E2; [discriminate|].
    assert (E : d_urn d = zu /\ d_anchor d = za /\ s = n) by (repeat split; congruence). destruct E as (-> & -> & ->).
    exists t, tr, a, u, n. repeat (split; [first [assumption | apply declared_name_iff; auto]|]). exact Hk.
  - intros (t' & tr & a & u & n & Hl' & Hm & Hp & Ha & Hu & Hn & Hk). destruct (at_level_fun _ _ _ _ _ Hl Hl') as [_ <-]. split; auto.
    exists n. assert (E : g_simple_extension t = Some ((a, u, n), [])) by (apply G; eauto). rewrite E.
    apply parse_u32_iff in Ha, Hu. rewrite Ha, Hu. cbn [unwrap rbind]. apply declared_name_iff in Hn as (-> & -> & Hn). auto.
Qed.

(** ** Adding entries *)

Inductive ins (e : exts) : entry -> exts -> Prop :=
| ins_urn u : urn_get e (u_anchor u) = None ->
    ins e (inl u) (mk_exts (oput N.compare (u_anchor u) (u_urn u) (e_urns e)) (e_decls e))
| ins_decl d : urn_get e (d_urn d) <> None -> decl_get e (d_kind d) (d_anchor d) = None ->
    ins e (inr d) (mk_exts (e_urns e) (oput cmp_key (d_anchor d, d_kind d) (d_urn d, d_name d) (e_decls e))).
Inductive adds : exts -> list entry -> exts -> Prop :=
| ad_nil e : adds e [] e
| ad_cons e x e1 l e2 : ins e x e1 -> adds e1 l e2 -> adds e (x :: l) e2.

Lemma adds_app e l m e2 : adds e (l ++ m) e2 <-> exists e1, adds e l e1 /\ adds e1 m e2.
Proof.
  revert e; induction l as [|x l IH]; intros e; cbn [app].
  - split; [intros H; exists e; split; [constructor|auto]|]. intros (e1 & H & H'). now inversion H; subst.
  - split.
    + intros H. inversion_clear H as [|? ? e1 ? ? H1 H2]. apply IH in H2 as (e3 & H2 & H3). exists e3. split; auto. econstructor; eauto.
    + intros (e3 & H & H3). inversion_clear H as [|? ? e1 ? ? H1 H2]. econstructor; eauto. apply IH. eauto.
Qed.

Lemma add_urn_iff e u e' : lift_insert (add_extension_urn e (u_urn u) (u_anchor u)) = Ok e' <-> ins e (inl u) e'.
Proof.
  unfold add_extension_urn. destruct (urn_get e (u_anchor u)) eqn:E; cbn [lift_insert].
  - split; [discriminate|]. intros H. inversion H; subst. congruence.
  - split.
    + intros [= <-]. now constructor.
    + intros H. now inversion H; subst.
Qed.
Lemma add_decl_iff e d s e' : norm_name (d_kind d) s = Some (d_name d) ->
  lift_insert (add_extension e (d_kind d) (d_urn d) (d_anchor d) s) = Ok e' <-> ins e (inr d) e'.
Proof.
  intros Hn. unfold add_extension. rewrite Hn. destruct (decl_get e (d_kind d) (d_anchor d)) as [[u p]|] eqn:E; cbn [lift_insert].
  - split; [discriminate|]. intros H. inversion H; subst. congruence.
  - destruct (urn_get e (d_urn d)) eqn:Eu; cbn [lift_insert].
    + split.
      * intros [= <-]. constructor; congruence.
      * intros H. now inversion H; subst.
    + split; [discriminate|]. intros H. inversion H; subst. congruence.
Qed.

(** ** The lines *)

Fixpoint xrun (x : ext_parser) (ls : list (list N)) : res ext_error ext_parser :=
  match ls with
  | [] => Ok x
  | l :: r => let? x' := ext_parse_line x (indented l) in xrun x' r
  end.
Inductive entries : ext_state -> list (list N) -> list entry -> Prop :=
| en_none : entries XExtensions [] []
| en_urns ls us : Forall2 urn_line ls us -> entries XUrns ls (map inl us)
| en_decls k ls ds : Forall2 (declaration_line k) ls ds -> entries (XDecls k) ls (map inr ds).
Inductive opens : list N -> ext_state -> Prop :=
| op_urns h : at_level 0 h (L "URNs:") -> opens h XUrns
| op_functions h : at_level 0 h (L "Functions:") -> opens h (XDecls KFunction)
| op_types h : at_level 0 h (L "Types:") -> opens h (XDecls KType)
| op_variations h : at_level 0 h (L "Type Variations:") -> opens h (XDecls KTypeVariation).

Lemma subsection_iff ls es : subsection ls es <-> exists h r st, ls = h :: r /\ opens h st /\ entries st r es.
Proof.
  split.
  - intros H. destruct H as [h r us H1 H2|h r ds H1 H2|h r ds H1 H2|h r ds H1 H2]; (do 3 eexists; split; [reflexivity|]; split; [|constructor; exact H2]);
      now constructor.
  - intros (h & r & st & -> & Ho & He). destruct Ho; inversion He; subst; now constructor.
Qed.
Lemma opens_iff x l d s : at_level d l s -> forall x', parse_subsection x d s = Ok x' <-> exists st, opens l st /\ x' = mk_xp st (xp_exts x).
Proof.
  intros Hl x'. unfold parse_subsection.
  assert (O : forall st, opens l st -> d = 0 /\ (st, s) = match st with XUrns => (XUrns, hdr_urns) | XDecls k => (XDecls k, hdr_kind k) | _ => (st, []) end).
  { intros st H. destruct H as [h H|h H|h H|h H]; destruct (at_level_fun _ _ _ _ _ Hl H) as [-> ->]; auto. }
  destruct d as [|d]; [|split; [discriminate|]; intros (st & H & _); apply O in H as [H _]; discriminate].
  destruct (streqb s hdr_urns) eqn:E1; [apply streqb_eq in E1; subst s|].
  { split.
    - intros [= <-]. exists XUrns. split; auto. now constructor.
    - intros (st & H & ->). apply O in H as [_ H]. destruct st as [| |[]]; try discriminate. reflexivity. }
  destruct (streqb s (hdr_kind KFunction)) eqn:E2; [apply streqb_eq in E2; subst s|].
  { split.
    - intros [= <-]. exists (XDecls KFunction). split; auto. now constructor.
    - intros (st & H & ->). apply O in H as [_ H]. destruct st as [| |[]]; try discriminate. reflexivity. }
  destruct (streqb s (hdr_kind KType)) eqn:E3; [apply streqb_eq in E3; subst s|].
  { split.
    - intros [= <-]. exists (XDecls KType). split; auto. now constructor.
    - intros (st & H & ->). apply O in H as [_ H]. destruct st as [| |[]]; try discriminate. reflexivity. }
  destruct (streqb s (hdr_kind KTypeVariation)) eqn:E4; [apply streqb_eq in E4; subst s|].
  { split.
    - intros [= <-]. exists (XDecls KTypeVariation). split; auto. now constructor.
    - intros (st & H & ->). apply O in H as [_ H]. destruct st as [| |[]]; try discriminate. reflexivity. }
  split; [discriminate|]. intros (st & H & ->).
  destruct H as [h H|h H|h H|h H]; destruct (at_level_fun _ _ _ _ _ Hl H) as [_ ->]; discriminate.
Qed.

Lemma ext_line_iff x l x' : ~ white l -> ext_parse_line x (indented l) = Ok x' <->
  (exists st, opens l st /\ x' = mk_xp st (xp_exts x)) \/
  (xp_state x = XUrns /\ exists u e', urn_line l u /\ ins (xp_exts x) (inl u) e' /\ x' = mk_xp XUrns e') \/
  (exists k, xp_state x = XDecls k /\ exists d e', declaration_line k l d /\ ins (xp_exts x) (inr d) e' /\ x' = mk_xp (XDecls k) e').
Proof.
  intros Hw. pose proof (at_level_indented l) as Hl. destruct (indented l) as [d s]. cbn [fst snd] in Hl.
  pose proof (level_text _ _ _ Hl Hw) as Hs. unfold ext_parse_line. destruct s as [|c s]; [congruence|]. set (t := c :: s) in *. clearbody t. clear c s.
  assert (UL : forall u, urn_line l u -> d = 1).
  { intros u (t' & _ & _ & H & _). now destruct (at_level_fun _ _ _ _ _ Hl H). }
  assert (DL : forall k u, declaration_line k l u -> d = 1).
  { intros k u (t' & _ & _ & _ & _ & H & _). now destruct (at_level_fun _ _ _ _ _ Hl H). }
  assert (OL : forall st, opens l st -> d = 0).
  { intros st H. destruct H as [h H|h H|h H|h H]; now destruct (at_level_fun _ _ _ _ _ Hl H). }
  assert (S : parse_subsection x d t = Ok x' <-> exists st, opens l st /\ x' = mk_xp st (xp_exts x)) by (now apply opens_iff).
  destruct (xp_state x) as [| |k].
  - rewrite S. split; [auto|]. intros [H|[[H _]|(k & H & _)]]; auto; discriminate.
  - destruct d as [|[|d]].
    + rewrite S. split; [auto|]. intros [H|[[_ (u & e' & H & _)]|(k & H & _)]]; auto; [apply UL in H; discriminate|discriminate].
    + split.
      * intros H. apply rbind_ok in H as (u & Hu & H). apply rbind_ok in H as (e' & He & H). injection H as <-.
        right; left. split; auto. exists u, e'. repeat split; auto.
        -- apply (urn_line_iff l t u Hl). destruct (parse_urn_declaration t); cbn in Hu; congruence.
        -- now apply add_urn_iff.
      * intros [(st & H & _)|[[_ (u & e' & H1 & H2 & ->)]|(k & H & _)]]; [apply OL in H; discriminate| |discriminate].
        apply (urn_line_iff l t u Hl) in H1. rewrite H1. cbn [lift_message rbind]. apply add_urn_iff in H2. rewrite H2. reflexivity.
    + split; [discriminate|].
      intros [(st & H & _)|[[_ (u & e' & H & _)]|(k & H & _)]]; [apply OL in H; discriminate|apply UL in H; discriminate|discriminate].
  - destruct d as [|[|d]].
    + rewrite S. split; [auto|]. intros [H|[[H _]|(k' & _ & u & e' & H & _)]]; auto; [discriminate|apply DL in H; discriminate].
    + split.
      * intros H. apply rbind_ok in H as (u & Hu & H). apply rbind_ok in H as (e' & He & H). injection H as <-.
        right; right. exists k. split; auto.
        assert (P : parse_declaration k t = Ok u) by (destruct (parse_declaration k t); cbn in Hu; congruence).
        assert (Ku : d_kind u = k).
        { unfold parse_declaration in P. destruct (g_simple_extension t) as [[[[a b] n] [|y r]]|]; try discriminate.
          apply rbind_ok in P as (za & _ & P). apply rbind_ok in P as (zu & _ & P). destruct (_ && _); [discriminate|].
          destruct (_ && _); [discriminate|]. injection P as <-. reflexivity. }
        destruct (norm_name k (d_name u)) as [n|] eqn:En.
        2: { unfold add_extension in He. rewrite En in He. discriminate. }
        set (d' := mk_decl k (d_urn u) (d_anchor u) n). exists d', e'. repeat split; auto.
        -- apply (declaration_line_iff k l t d' Hl). split; auto. exists (d_name u). cbn. split; auto. rewrite P. f_equal. destruct u; cbn in *. now subst.
        -- now apply (add_decl_iff _ d' (d_name u)).
      * intros [(st & H & _)|[[H _]|(k' & Hk & u & e' & H1 & H2 & ->)]]; [apply OL in H; discriminate|discriminate|].
        injection Hk as <-.
        apply (declaration_line_iff k l t u Hl) in H1 as [(s & P & Hn) Hk]. rewrite P. cbn [lift_message rbind d_urn d_anchor d_name].
        subst k. apply (add_decl_iff _ u s _ Hn) in H2. rewrite H2. reflexivity.
    + split; [discriminate|].
      intros [(st & H & _)|[[H _]|(k' & _ & u & e' & H & _)]]; [apply OL in H; discriminate|discriminate|apply DL in H; discriminate].
Qed.

Lemma entries_nil st : entries st [] [].
Proof. destruct st; [constructor|apply (en_urns [] [])|apply (en_decls _ [] [])]; constructor. Qed.
Lemma entries_nil_inv st es : entries st [] es -> es = [].
Proof. inversion 1 as [|? ? H1|? ? ? H1]; subst; auto; inversion H1; reflexivity. Qed.

Lemma xrun_iff ws : Forall written_line ws -> forall st e e',
  (exists st', xrun (mk_xp st e) ws = Ok (mk_xp st' e')) <->
  exists ls subs es ess, ws = ls ++ concat subs /\ entries st ls es /\ Forall2 subsection subs ess /\ adds e (es ++ concat ess) e'.
Proof.
  induction 1 as [|l ws Hl Hws IH]; intros st e e'.
  - cbn [xrun]. split.
    + intros (st' & [= -> ->]). exists [], [], [], []. repeat split; auto using entries_nil. constructor.
    + intros (ls & subs & es & ess & E & He & Hs & Ha). symmetry in E. apply app_eq_nil in E as [-> E].
      apply entries_nil_inv in He. subst es. destruct Hs as [|s es subs ess H _].
      * cbn in Ha. inversion Ha; subst. eauto.
      * apply subsection_iff in H as (h & r & st0 & -> & _). discriminate.
  - cbn [xrun]. split.
    + intros (st' & H). apply rbind_ok in H as ([st1 e1] & H1 & H2). apply ext_line_iff in H1; auto. cbn [xp_state xp_exts] in H1.
      destruct (proj1 (IH st1 e1 e') (ex_intro _ _ H2)) as (ls & subs & es & ess & -> & He & Hs & Ha). clear H2 IH.
      destruct H1 as [(st2 & Ho & [= -> ->])|[(-> & u & e2 & Hu & Hi & [= -> ->])|(k & -> & d & e2 & Hd & Hi & [= -> ->])]].
      * exists [], ((l :: ls) :: subs), [], (es :: ess). repeat split; auto using entries_nil. constructor; auto.
        apply subsection_iff. exists l, ls, st2. auto.
      * exists (l :: ls), subs, (inl u :: es), ess. repeat split; auto.
        -- inversion_clear He. change (inl u :: map inl us) with (map (@inl urn_decl ext_decl) (u :: us)). constructor. now constructor.
        -- cbn [app]. econstructor; eauto.
      * exists (l :: ls), subs, (inr d :: es), ess. repeat split; auto.
        -- inversion_clear He. change (inr d :: map inr ds) with (map (@inr urn_decl ext_decl) (d :: ds)). constructor. now constructor.
        -- cbn [app]. econstructor; eauto.
    + intros (ls & subs & es & ess & E & He & Hs & Ha).
      assert (G : forall x1, ext_parse_line (mk_xp st e) (indented l) = Ok x1 ->
        (exists st', xrun x1 ws = Ok (mk_xp st' e')) ->
        exists st', (let? x' := ext_parse_line (mk_xp st e) (indented l) in xrun x' ws) = Ok (mk_xp st' e')).
      { intros x1 -> H. exact H. }
      destruct ls as [|l0 ls].
      * apply entries_nil_inv in He. subst es. destruct Hs as [|s es subs ess H Hs]; [discriminate|].
        apply subsection_iff in H as (h & r & st0 & -> & Ho & He). cbn [concat app] in E, Ha. injection E as <- ->.
        apply (G (mk_xp st0 e)).
        -- apply ext_line_iff; auto. left. exists st0. auto.
        -- apply IH. exists r, subs, es, ess. auto.
      * cbn [app] in E. injection E as <- ->. inversion He as [|? us Hu|k ? ds Hd]; subst.
        -- inversion Hu as [|? u ? us' Hu1 Hu2]; subst. cbn [map app] in Ha. inversion_clear Ha as [|? ? e1 ? ? Hi Ha'].
           apply (G (mk_xp XUrns e1)).
           ++ apply ext_line_iff; auto. right; left. split; auto. exists u, e1. auto.
           ++ apply IH. exists ls, subs, (map inl us'), ess. repeat split; auto. now constructor.
        -- inversion Hd as [|? d ? ds' Hd1 Hd2]; subst. cbn [map app] in Ha. inversion_clear Ha as [|? ? e1 ? ? Hi Ha'].
           apply (G (mk_xp (XDecls k) e1)).
           ++ apply ext_line_iff; auto. right; right. exists k. split; auto. exists d, e1. auto.
           ++ apply IH. exists ls, subs, (map inr ds'), ess. repeat split; auto. now constructor.
Qed.
Lemma xrun_extensions_iff ws e : Forall written_line ws ->
  (exists st, xrun xp_default ws = Ok (mk_xp st e)) <->
  exists subs ess, ws = concat subs /\ Forall2 subsection subs ess /\ adds exts_empty (concat ess) e.
Proof.
  intros H. unfold xp_default. rewrite xrun_iff by auto. split.
  - intros (ls & subs & es & ess & -> & He & Hs & Ha). inversion He; subst. exists subs, ess. auto.
  - intros (subs & ess & -> & Hs & Ha). exists [], subs, [], ess. repeat split; auto. constructor.
Qed.

(** ** The table *)

Lemma adds_wf es : forall e e', wf_exts e -> adds e es e' -> wf_exts e'.
Proof.
  induction es as [|x es IH]; intros e e' Hw H; inversion H as [|? ? e1 ? ? Hi Ha]; subst; auto.
  apply (IH e1); auto. destruct Hw as [W1 W2]. destruct Hi; split; cbn; auto; apply oput_sorted; auto using ord_N, ord_key.
Qed.

Lemma oput_new_in {K V} (cmp : K -> K -> comparison) (O : ord cmp) k (v : V) m x : osorted cmp m -> oget cmp k m = None ->
  In x (oput cmp k v m) <-> x = (k, v) \/ In x m.
Proof.
  intros Hs Hn. split; [apply oput_in|]. destruct x as [k' v']. intros H. apply (oget_in cmp O); [now apply oput_sorted|].
  destruct H as [[= -> ->]|H]; [now apply oget_put_eq|].
  assert (G : oget cmp k' m = Some v') by now apply oget_in.
  rewrite oget_put_neq; auto. intros ->. congruence.
Qed.

Lemma snoc_split {X} (es : list X) x a y b : es ++ [x] = a ++ y :: b ->
  (b = [] /\ a = es /\ x = y) \/ exists b', b = b' ++ [x] /\ es = a ++ y :: b'.
Proof.
  intros E. destruct b as [|z b _] using rev_ind.
  - apply app_inj_tail in E as [-> ->]. auto.
  - right. exists b. change (y :: b ++ [z]) with ((y :: b) ++ [z]) in E. rewrite app_assoc in E. apply app_inj_tail in E as [-> ->]. auto.
Qed.
Lemma coherent_snoc es x : coherent (es ++ [x]) <-> coherent es /\
  match x with
  | inl u => forall v, In (inl v) es -> u_anchor v <> u_anchor u
  | inr d => (forall f, In (inr f) es -> d_kind f = d_kind d -> d_anchor f <> d_anchor d) /\ exists u, In (inl u) es /\ u_anchor u = d_urn d
  end.
Proof.
  split.
  - intros (H1 & H2 & H3). split; [split; [|split]|].
    + intros a b c u v ->. apply (H1 a b (c ++ [x])). now rewrite <- !app_assoc; cbn [app]; rewrite <- app_assoc.
    + intros a b c u v ->. apply (H2 a b (c ++ [x])). now rewrite <- !app_assoc; cbn [app]; rewrite <- app_assoc.
    + intros a b d ->. apply (H3 a (b ++ [x])). now rewrite <- !app_assoc.
    + destruct x as [u|d].
      * intros v Hv. apply in_split in Hv as (a & b & ->). apply (H1 a b []). now rewrite <- app_assoc.
      * split.
        -- intros f Hf. apply in_split in Hf as (a & b & ->). apply (H2 a b []). now rewrite <- app_assoc.
        -- now apply (H3 es []).
  - intros ((H1 & H2 & H3) & Hx). split; [|split].
    + intros a b c u v E. change (inl u :: b ++ inl v :: c) with ((inl u :: b) ++ inl v :: c) in E. rewrite app_assoc in E.
      apply snoc_split in E as [(-> & <- & ->)|(c' & -> & ->)].
      * apply Hx. apply in_or_app. right. now left.
      * apply (H1 a b c'). now rewrite <- app_assoc.
    + intros a b c u v E. change (inr u :: b ++ inr v :: c) with ((inr u :: b) ++ inr v :: c) in E. rewrite app_assoc in E.
      apply snoc_split in E as [(-> & <- & ->)|(c' & -> & ->)].
      * apply Hx. apply in_or_app. right. now left.
      * apply (H2 a b c'). now rewrite <- app_assoc.
    + intros a b d E. apply snoc_split in E as [(-> & -> & ->)|(c' & -> & ->)].
      * apply Hx.
      * now apply (H3 a c').
Qed.

Definition members (es : list entry) (e : exts) : Prop :=
  (forall a n, In (a, n) (e_urns e) <-> In (inl (mk_urn a n)) es)
  /\ (forall a k u n, In ((a, k), (u, n)) (e_decls e) <-> In (inr (mk_decl k u a n)) es).

Lemma urn_get_members es e a : wf_exts e -> members es e -> urn_get e a = None <-> forall v, In (inl v) es -> u_anchor v <> a.
Proof.
  intros [W _] [M _]. unfold urn_get. rewrite (oget_none _ ord_N) by auto. split.
  - intros H v Hv E. apply H. apply in_map_iff. exists (a, u_urn v). split; auto. apply M. destruct v; cbn in *. now subst.
  - intros H Hi. apply in_map_iff in Hi as ([a' n] & E & Hi). cbn in E. subst a'. apply M in Hi. now apply (H _ Hi).
Qed.
Lemma decl_get_members es e k a : wf_exts e -> members es e ->
  decl_get e k a = None <-> forall f, In (inr f) es -> d_kind f = k -> d_anchor f <> a.
Proof.
  intros [_ W] [_ M]. unfold decl_get. rewrite (oget_none _ ord_key) by auto. split.
  - intros H f Hf Ek E. apply H. apply in_map_iff. exists ((a, k), (d_urn f, d_name f)). split; auto. apply M. destruct f; cbn in *. now subst.
  - intros H Hi. apply in_map_iff in Hi as ([[a' k'] [u n]] & E & Hi). cbn in E. injection E as -> ->. apply M in Hi. now apply (H _ Hi).
Qed.

Lemma members_ins es e x e' : wf_exts e -> members es e -> ins e x e' -> members (es ++ [x]) e'.
Proof.
  intros [W1 W2] [M1 M2] H. destruct H as [u H|d H1 H2]; split; cbn [e_urns e_decls].
  - intros a n. rewrite (oput_new_in _ ord_N) by auto. rewrite M1, in_app_iff. cbn [In]. split.
    + intros [[= -> ->]|Hi]; auto. destruct u. auto.
    + intros [Hi|[[= ->]|[]]]; auto.
  - intros a k u0 n. rewrite M2, in_app_iff. cbn [In]. split; auto. intros [Hi|[Hi|[]]]; [auto|discriminate].
  - intros a n. rewrite M1, in_app_iff. cbn [In]. split; auto. intros [Hi|[Hi|[]]]; [auto|discriminate].
  - intros a k u0 n. rewrite (oput_new_in _ ord_key) by auto. rewrite M2, in_app_iff. cbn [In]. split.
    + intros [[= -> -> -> ->]|Hi]; auto. destruct d. auto.
    + intros [Hi|[[= ->]|[]]]; auto.
Qed.

Lemma adds_members es : forall e, adds exts_empty es e -> members es e /\ coherent es.
Proof.
  induction es as [|x es IH] using rev_ind; intros e H.
  - inversion H; subst. repeat split; try tauto; cbn; try tauto; intros; exfalso;
      match goal with H : [] = ?a ++ _ |- _ => now destruct a end.
  - apply adds_app in H as (e1 & H1 & H2). inversion_clear H2 as [|? ? e2 ? ? Hi Hn]. inversion Hn; subst.
    destruct (IH e1 H1) as [M C]. pose proof (adds_wf _ _ _ wf_empty H1) as W. split; [eapply members_ins; eauto|].
    apply coherent_snoc. split; auto. destruct Hi as [u Hu|d Hu Hd].
    + now apply (urn_get_members es e1).
    + split; [now apply (decl_get_members es e1)|].
      destruct (urn_get e1 (d_urn d)) as [n|] eqn:E; [|congruence]. unfold urn_get in E. apply (oget_in _ ord_N) in E; [|apply W].
      apply M in E. eauto.
Qed.
Lemma coherent_adds es : coherent es -> exists e, adds exts_empty es e.
Proof.
  induction es as [|x es IH] using rev_ind; intros H; [exists exts_empty; constructor|].
  apply coherent_snoc in H as [C Hx]. destruct (IH C) as (e & He). destruct (adds_members es e He) as [M _].
  pose proof (adds_wf _ _ _ wf_empty He) as W.
  assert (X : exists e', ins e x e').
  { destruct x as [u|d]; eexists; constructor.
    - now apply (urn_get_members es e).
    - destruct Hx as [_ (u & Hu & E)]. rewrite (urn_get_members es e) by auto. intros H. now apply (H u).
    - destruct Hx as [Hx _]. now apply (decl_get_members es e). }
  destruct X as (e' & Hi). exists e'. apply adds_app. exists e. split; auto. econstructor; eauto. constructor.
Qed.

Lemma sorted_urns m : StronglySorted urn_before m <-> osorted N.compare m.
Proof. unfold osorted, klt, urn_before, N.lt. split; auto. Qed.
Lemma sorted_decls m : StronglySorted declaration_before m <-> osorted cmp_key m.
Proof.
  assert (G : forall a b, declaration_before a b <-> klt cmp_key a b).
  { intros [[a k] x] [[b k'] y]. unfold declaration_before, klt, cmp_key, cmp_pair, cmp_kind. cbn [fst snd].
    change (kind_rank k) with (kind_number k). change (kind_rank k') with (kind_number k').
    destruct (N.compare_spec a b) as [H|H|H].
    - rewrite N.compare_lt_iff. lia.
    - split; auto.
    - split; [lia|discriminate]. }
  unfold osorted. split; (induction 1 as [|x l Hs IH Hf]; constructor; auto; eapply Forall_impl; [|exact Hf]; intros; now apply G).
Qed.
Lemma table_wf es e : table_of es e -> wf_exts e.
Proof. intros (H1 & H2 & _). split; [now apply sorted_urns|now apply sorted_decls]. Qed.

Lemma adds_iff es e : adds exts_empty es e <-> coherent es /\ table_of es e.
Proof.
  split.
  - intros H. destruct (adds_members es e H) as [[M1 M2] C]. destruct (adds_wf _ _ _ wf_empty H) as [W1 W2].
    split; auto. split; [now apply sorted_urns|]. split; [now apply sorted_decls|]. auto.
  - intros [C T]. destruct (coherent_adds es C) as (e' & H). destruct (adds_members es e' H) as [[M1 M2] _].
    destruct (adds_wf _ _ _ wf_empty H) as [W1 W2]. pose proof (table_wf _ _ T) as [V1 V2]. destruct T as (_ & _ & T1 & T2).
    assert (E : e = e'); [|now rewrite E]. destruct e as [us ds], e' as [us' ds']. cbn in *. f_equal.
    + apply (sorted_in_eq _ ord_N); auto. intros [a n]. now rewrite T1, M1.
    + apply (sorted_in_eq _ ord_key); auto. intros [[a k] [u n]]. now rewrite T2, M2.
Qed.
