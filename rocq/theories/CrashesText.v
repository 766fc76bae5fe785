(** Reading crashes where the specification says: whole texts. *)
From Coq Require Import String List NArith ZArith Bool Lia PeanoNat.
From Verif Require Import Base BaseFacts Peg OMap SimpleExt SimpleExtFacts Out ExtLines Lines LinesFacts SpecLines Tree SpecTree TreeFacts
  Names Literals RelGrammar Registry Rels RelRead Structural StructuralFacts LineView ReadFacts Plan BuildFacts Pest SpecGrammar Props_Grammar
  SpecRegistry CrashFacts SpecMeaning MeaningFacts MeaningRels SpecText TextFacts TextDecls TextRun TextPlan SpecCrashes CrashesFacts CrashesRels CrashesTrees.
Import ListNotations.
Local Open Scope string_scope.
Local Open Scope list_scope.
Local Open Scope nat_scope.

Lemma u32_none a : parse_u32 a = None <-> ~ exists n, natural a n.
Proof.
  split.
  - intros H (n & Hn). apply parse_u32_iff in Hn. congruence.
  - intros H. destruct (parse_u32 a) as [n|] eqn:E; auto. destruct H. exists n. now apply parse_u32_iff.
Qed.

(** ** Lines of declarations *)

Lemma matched {A} rule (v : tree -> A -> Prop) p s t r : follows rule v p -> matches the_grammar rule s t r -> exists a, p s = Some (a, r) /\ v t a.
Proof.
  intros G Hm. destruct (p s) as [[a r']|] eqn:E; apply G in E.
  - destruct E as (t' & Hm' & Hv). pose proof (C51_one_answer _ _ _ _ _ _ _ Hm Hm') as Q. injection Q as <- <-. eauto.
  - pose proof (C51_one_answer _ _ _ _ _ _ _ Hm E) as Q. discriminate.
Qed.
Lemma urn_crash l t m : at_level 1 l t -> parse_urn_declaration t = Panic m <-> urn_crashes l m.
Proof.
  intros Hl. unfold parse_urn_declaration, urn_crashes, declaration_crashes. pose proof (proj1 C51_declarations) as G. split.
  - intros H. destruct (g_urn_declaration t) as [[[a s] [|x r]]|] eqn:E; try discriminate; apply G in E as (tr & Hm & Hp).
    + apply rmap_panic in H. destruct (parse_u32 a) as [n|] eqn:Ea; cbn [unwrap] in H; [discriminate|]. injection H as <-.
      exists t, tr, []. split; auto. split; auto. right. split; auto. split; auto. exists a. split; [eauto|]. now apply u32_none.
    + injection H as <-. exists t, tr, (x :: r). split; auto. split; auto. left. split; [discriminate|auto].
  - intros (t' & tr & rest & Hl' & Hm & H). destruct (at_level_fun _ _ _ _ _ Hl Hl') as [_ <-]. destruct H as [[Hn ->]|(-> & (a & (u & Hp) & Hn) & ->)].
    + destruct (matched _ _ _ _ _ _ G Hm) as ([a u] & -> & _). destruct rest; [congruence|reflexivity].
    + assert (E : g_urn_declaration t = Some ((a, u), [])) by (apply G; eauto). rewrite E. apply u32_none in Hn. rewrite Hn. reflexivity.
Qed.
Lemma function_crash k l t m : at_level 1 l t -> parse_declaration k t = Panic m <-> function_crashes l m.
Proof.
  intros Hl. unfold parse_declaration, function_crashes, declaration_crashes. pose proof (proj2 C51_declarations) as G. split.
  - intros H. destruct (g_simple_extension t) as [[[[a u] n] [|x r]]|] eqn:E; try discriminate; apply G in E as (tr & Hm & Hp).
    + exists t, tr, []. split; auto. split; auto. right. split; auto. destruct (parse_u32 a) as [za|] eqn:Ea; cbn [unwrap rbind] in H.
      * destruct (parse_u32 u) as [zu|] eqn:Eu; cbn [unwrap rbind] in H; [destruct (_ && _); [|destruct (_ && _)]; discriminate|].
        injection H as <-. split; auto. exists u. split; [eauto|]. now apply u32_none.
      * injection H as <-. split; auto. exists a. split; [eauto|]. now apply u32_none.
    + injection H as <-. exists t, tr, (x :: r). split; auto. split; auto. left. split; [discriminate|auto].
  - intros (t' & tr & rest & Hl' & Hm & H). destruct (at_level_fun _ _ _ _ _ Hl Hl') as [_ <-].
    destruct H as [[Hn ->]|(-> & (a & (u & n & Hp) & Hn) & ->)].
    + destruct (matched _ _ _ _ _ _ G Hm) as ([[a u] n] & -> & _). destruct rest; [congruence|reflexivity].
    + apply u32_none in Hn. destruct Hp as [Hp|Hp].
      * assert (E : g_simple_extension t = Some ((a, u, n), [])) by (apply G; eauto). rewrite E, Hn. reflexivity.
      * assert (E : g_simple_extension t = Some ((u, a, n), [])) by (apply G; eauto). rewrite E, Hn. destruct (parse_u32 u); reflexivity.
Qed.
Lemma lift_message_panic {A} (x : pres A) m : lift_message x = Panic m <-> x = Panic m.
Proof. destruct x; cbn; split; congruence. Qed.
Lemma insert_no_panic {A} x (f : exts -> A) m : (let? e := lift_insert x in Ok (f e)) <> Panic m.
Proof. destruct x as [e [er|]]; discriminate. Qed.
Lemma subsection_no_panic x d t m : parse_subsection x d t <> Panic m.
Proof. unfold parse_subsection. destruct d; [|discriminate]. do 4 (destruct (streqb _ _); [discriminate|]). discriminate. Qed.
Lemma ext_line_crash x l m : ~ white l -> ext_parse_line x (indented l) = Panic m <->
  xp_state x = XUrns /\ urn_crashes l m \/ (exists k, xp_state x = XDecls k) /\ function_crashes l m.
Proof.
  intros Hw. pose proof (at_level_indented l) as Hl. destruct (indented l) as [d s]. cbn [fst snd] in Hl.
  pose proof (level_text _ _ _ Hl Hw) as Hs. unfold ext_parse_line. destruct s as [|c s]; [congruence|]. set (t := c :: s) in *. clearbody t. clear c s.
  assert (UL : urn_crashes l m -> d = 1).
  { intros (t' & tr & r & H & _). now destruct (at_level_fun _ _ _ _ _ Hl H). }
  assert (FL : function_crashes l m -> d = 1).
  { intros (t' & tr & r & H & _). now destruct (at_level_fun _ _ _ _ _ Hl H). }
  destruct (xp_state x) as [| |k].
  - split; [intros H; now apply subsection_no_panic in H|]. intros [[H _]|((k & H) & _)]; discriminate.
  - assert (N : forall k, XUrns <> XDecls k) by discriminate. destruct d as [|[|d]].
    + split; [intros H; now apply subsection_no_panic in H|]. intros [[_ H]|((k & H) & _)]; [apply UL in H|]; discriminate.
    + rewrite rbind_panic, lift_message_panic, (urn_crash l t m Hl). split.
      * intros [H|(u & _ & H)]; [auto|]. now apply insert_no_panic in H.
      * intros [[_ H]|((k & H) & _)]; [auto|discriminate].
    + split; [discriminate|]. intros [[_ H]|((k & H) & _)]; [apply UL in H|]; discriminate.
  - destruct d as [|[|d]].
    + split; [intros H; now apply subsection_no_panic in H|]. intros [[H _]|(_ & H)]; [|apply FL in H]; discriminate.
    + rewrite rbind_panic, lift_message_panic, (function_crash k l t m Hl). split.
      * intros [H|(u & _ & H)]; [eauto|]. now apply insert_no_panic in H.
      * intros [[H _]|(_ & H)]; [discriminate|auto].
    + split; [discriminate|]. intros [[H _]|(_ & H)]; [|apply FL in H]; discriminate.
Qed.

(** ** The open subsection *)

Definition level1 (l : list N) : Prop := exists t, at_level 1 l t.
Lemma opens_level l st : opens l st -> exists t, at_level 0 l t /\ t <> [].
Proof. destruct 1; (eexists; split; [eassumption|discriminate]). Qed.
Lemma opens_written l st : opens l st -> written_line l.
Proof. intros H Hw. apply opens_level in H as (t & H & Ht). apply white_level in Hw. destruct (at_level_fun _ _ _ _ _ H Hw). congruence. Qed.
Lemma opens_not1 l st : opens l st -> ~ level1 l.
Proof. intros H (t' & H'). apply opens_level in H as (t & H & Ht). destruct (at_level_fun _ _ _ _ _ H H'). discriminate. Qed.
Lemma level1_written l : level1 l -> written_line l.
Proof. intros (t & H) Hw. apply white_level in Hw. destruct (at_level_fun _ _ _ _ _ H Hw). discriminate. Qed.
Lemma opens_fun l st st' : opens l st -> opens l st' -> st = st'.
Proof. intros H H'. destruct H as [h H|h H|h H|h H], H' as [h H'|h H'|h H'|h H']; auto; destruct (at_level_fun _ _ _ _ _ H H') as [_ E]; discriminate. Qed.
Lemma urn_level1 l u : urn_line l u -> level1 l.
Proof. intros (t & tr & a & H & _). now exists t. Qed.
Lemma decl_level1 k l d : declaration_line k l d -> level1 l.
Proof. intros (t & tr & a & u & n & H & _). now exists t. Qed.

Definition shows (st : ext_state) (ws : list (list N)) : Prop :=
  exists before h after, ws = before ++ h :: after /\ opens h st /\ Forall level1 after.
Lemma xrun_state ws : Forall written_line ws -> forall x x' , xrun x ws = Ok x' ->
  shows (xp_state x') ws \/ xp_state x' = xp_state x /\ Forall level1 ws.
Proof.
  induction 1 as [|l ws Hl _ IH]; intros x x' H; cbn [xrun] in H.
  - injection H as <-. auto.
  - apply rbind_ok in H as (x1 & H1 & H2). apply ext_line_iff in H1; auto. destruct (IH _ _ H2) as [(b & h & a & -> & Ho & Ha)|[E Ha]].
    + left. exists (l :: b), h, a. auto.
    + destruct H1 as [(st & Ho & ->)|[(Hs & u & e' & Hu & _ & ->)|(k & Hs & d & e' & Hd & _ & ->)]]; cbn [xp_state] in E.
      * left. exists [], l, ws. rewrite E. auto.
      * right. rewrite E, Hs. split; auto. constructor; auto. eapply urn_level1; eauto.
      * right. rewrite E, Hs. split; auto. constructor; auto. eapply decl_level1; eauto.
Qed.
Lemma xrun_level1 ws : Forall level1 ws -> forall x x', xrun x ws = Ok x' -> xp_state x' = xp_state x.
Proof.
  intros Hf x x' H. destruct (xrun_state ws) with (x := x) (x' := x') as [(b & h & a & -> & Ho & _)|[E _]]; auto.
  - eapply Forall_impl; [|exact Hf]. apply level1_written.
  - apply Forall_app in Hf as [_ Hf]. inversion Hf; subst. now apply opens_not1 in Ho.
Qed.
Lemma xrun_app a b x : xrun x (a ++ b) = (let? y := xrun x a in xrun y b).
Proof. revert x; induction a as [|l a IH]; intros x; cbn [app xrun rbind]; auto. destruct (ext_parse_line x (indented l)); cbn [rbind]; auto. Qed.
Lemma xrun_shows st ws x : shows st ws -> Forall written_line ws -> xrun xp_default ws = Ok x -> xp_state x = st.
Proof.
  intros (b & h & a & -> & Ho & Ha) Hw H. rewrite xrun_app in H. apply rbind_ok in H as (y & _ & H). cbn [xrun] in H.
  apply rbind_ok in H as (z & Hz & H). apply xrun_level1 in H; auto. rewrite H.
  apply ext_line_iff in Hz; [|now apply opens_written in Ho]. destruct Hz as [(st' & Ho' & ->)|[(_ & u & e & Hu & _)|(k & _ & d & e & Hd & _)]].
  - eapply opens_fun; eauto.
  - apply urn_level1 in Hu. now apply opens_not1 in Ho.
  - apply decl_level1 in Hd. now apply opens_not1 in Ho.
Qed.
Lemma only_around {X} (P : X -> Prop) a x b m : P x -> only P (a ++ x :: b) m -> exists a' b', m = a' ++ x :: b' /\ only P a a' /\ only P b b'.
Proof.
  intros Hx. revert m; induction a as [|y a IH]; intros m H; cbn [app] in H; inversion H as [|? ? m' H1 H2|? ? m' H1 H2]; subst.
  - exists [], m'. repeat split; auto. constructor.
  - contradiction.
  - destruct (IH _ H2) as (a' & b' & -> & Ha & Hb). exists (y :: a'), b'. repeat split; auto. now constructor.
  - destruct (IH _ H2) as (a' & b' & -> & Ha & Hb). exists a', b'. repeat split; auto. now apply on_skip.
Qed.
Lemma only_back {X} (P : X -> Prop) l a x b : only P l (a ++ x :: b) -> exists a' b', l = a' ++ x :: b' /\ only P a' a /\ only P b' b.
Proof.
  intros H. remember (a ++ x :: b) as m eqn:E. revert a E; induction H as [|y l m H1 H2 IH|y l m H1 H2 IH]; intros a E.
  - destruct a; discriminate.
  - destruct a as [|z a]; cbn [app] in E; injection E as -> ->.
    + exists [], l. repeat split; auto. constructor.
    + destruct (IH a eq_refl) as (a' & b' & -> & Ha & Hb). exists (z :: a'), b'. repeat split; auto. now constructor.
  - destruct (IH a E) as (a' & b' & -> & Ha & Hb). exists (y :: a'), b'. repeat split; auto. now apply on_skip.
Qed.
Lemma open_shows H ls ws st : at_level 0 H (L "=== Extensions") -> only written_line ls ws ->
  (exists h, open_at (H :: ls) h /\ opens h st) <-> shows st ws.
Proof.
  intros HH Ho. split.
  - intros (h & (b & a & E & Ha) & Hh). destruct b as [|y b]; cbn [app] in E; injection E as E1 E2.
    + subst h. exfalso. destruct Hh as [h Hh|h Hh|h Hh|h Hh]; destruct (at_level_fun _ _ _ _ _ HH Hh) as [_ Q]; discriminate.
    + subst y ls. apply only_around in Ho as (b' & a' & -> & _ & Ho); [|now apply opens_written in Hh]. exists b', h, a'. repeat split; auto.
      clear - Ho Ha. induction Ho as [|x l m Hx _ IH|x l m Hx _ IH]; inversion Ha as [|? ? Hw Ha']; subst; auto.
      constructor; auto. destruct Hw as [Hw|Hw]; [contradiction|exact Hw].
  - intros (b & h & a & -> & Hh & Ha). apply only_back in Ho as (b' & a' & -> & _ & Ho). exists h. split; auto. exists (H :: b'), a'. split; auto.
    clear - Ho Ha. induction Ho as [|x l m Hx _ IH|x l m Hx _ IH]; auto.
    + inversion Ha; subst. constructor; auto.
    + constructor; auto. left. apply blank_iff. destruct (blank x) eqn:E; auto. apply blank_false in E. contradiction.
Qed.
Lemma declaration_line_crash H ls ws x l m : at_level 0 H (L "=== Extensions") -> only written_line ls ws -> xrun xp_default ws = Ok x -> ~ white l ->
  ext_parse_line x (indented l) = Panic m <-> declaration_line_crashes (H :: ls) l m.
Proof.
  intros HH Ho Hx Hl. rewrite ext_line_crash by auto. pose proof (only_written _ _ _ Ho) as Hw.
  assert (S : forall st, st <> XExtensions -> xp_state x = st <-> shows st ws).
  { intros st Hst. split; [|intros Hs; now apply (xrun_shows st ws)]. intros <-.
    destruct (xrun_state ws Hw _ _ Hx) as [G|[E _]]; auto. cbn in E. congruence. }
  unfold declaration_line_crashes. split.
  - intros [[E Hc]|((k & E) & Hc)]; (apply S in E; [|discriminate]); apply (open_shows H ls ws _ HH Ho) in E as (h & H1 & H2); exists h; split; auto.
    + left. split; auto. now inversion H2.
    + right. split; auto. inversion H2; auto.
  - intros (h & H1 & [[H2 Hc]|[H2 Hc]]).
    + left. split; auto. apply S; [discriminate|]. apply (open_shows H ls ws _ HH Ho). exists h. split; auto. now constructor.
    + right. split; auto. destruct H2 as [H2|[H2|H2]]; [exists KFunction|exists KType|exists KTypeVariation]; (apply S; [discriminate|]);
        apply (open_shows H ls ws _ HH Ho); exists h; (split; [auto|now constructor]).
Qed.

(** ** The loop over the lines *)

Lemma header_no_panic (p : lparser) n s m : parse_section_header rline acst p n s <> Panic m.
Proof.
  intros H. unfold parse_section_header in H. destruct (streqb _ _); [discriminate|]. destruct (streqb _ _); [discriminate|]. destruct (strip_prefix _ _) as [r|]; [|discriminate].
  destruct (match r with [] => _ | _ => _ end); [|discriminate]. apply rmap_panic in H. pose proof (version_header_pan (fun _ => False) n r) as P. rewrite H in P. exact P.
Qed.
Lemma step_crash p n l m : planning p = false -> sane p -> lstep p n l = Panic m <->
  state p = SExtensions /\ ~ white l /\ ext_parse_line (pext p) (indented l) = Panic m.
Proof.
  intros Hp Hs. unfold step. destruct (blank l) eqn:B.
  { apply blank_iff in B. split; [discriminate|tauto]. }
  apply blank_false in B. pose proof (at_level_indented l) as Hl. pose proof (ext_line_crash (pext p) l m B) as EC. unfold parse_line. destruct (indented l) as [d s] eqn:Ei. cbn [fst snd] in Hl.
  assert (D : ext_parse_line (pext p) (d, s) = Panic m -> d = 1).
  { rewrite EC. intros [[_ (t & tr & r & H & _)]|[_ (t & tr & r & H & _)]]; now destruct (at_level_fun _ _ _ _ _ Hl H). }
  destruct (match d with 0 => starts_with (L "===") s | S _ => false end) eqn:E.
  - destruct d as [|d]; [|discriminate]. split.
    + intros H. apply rbind_panic in H as [H|([st v] & _ & H)]; [now apply header_no_panic in H|]. destruct (_ <=? _); discriminate.
    + intros (_ & _ & H). apply D in H. discriminate.
  - unfold in_plan in Hp. destruct p as [st v x t]. unfold sane in Hs. cbn [ps_state ps_version ps_ext ps_tree] in *.
    destruct st; try discriminate.
    + split; [destruct d; [destruct (trim s)|]; discriminate|]. intros (H & _). discriminate.
    + split; [|intros (H & _); discriminate]. destruct v as [v|]; [|now destruct (Hs eq_refl)].
      destruct d as [|[|d]]; [destruct (trim s); discriminate| |discriminate]. intros H. apply rbind_panic in H as [H|(v' & _ & H)]; [|discriminate].
      unfold parse_version_detail in H. destruct (split_at_char _ _) as [[? ?]|]; [|discriminate]. destruct (streqb _ _); [discriminate|]. destruct (streqb _ _); discriminate.
    + rewrite rbind_panic. unfold lift_ext. destruct (ext_parse_line x (d, s)) as [x'|er|pm].
      * split; [intros [H|(? & _ & H)]; discriminate|]. intros (_ & _ & H). discriminate.
      * split; [intros [H|(? & H & _)]; discriminate|]. intros (_ & _ & H). discriminate.
      * split; [intros [H|(? & H & _)]; [|discriminate]; injection H as ->; auto|]. intros (_ & _ & H). left. congruence.
Qed.
Lemma plan_step_quiet p n l m : planning p = true -> lstep p n l <> Panic m.
Proof.
  intros Hp H. unfold step in H. destruct (blank l); [discriminate|]. unfold parse_line in H. destruct (indented l) as [d s].
  destruct (match d with 0 => _ | S _ => _ end).
  - apply rbind_panic in H as [H|([st v] & _ & H)]; [now apply header_no_panic in H|]. destruct (_ <=? _); discriminate.
  - unfold in_plan in Hp. destruct (state p); try discriminate. apply rbind_panic in H as [H|(x & _ & H)].
    + unfold lift_plan in H. destruct d.
      * pose proof (read_root_total s) as T. destruct (read_root s) as [| |q]; try discriminate. now destruct (T q).
      * pose proof (read_node_total s) as T. destruct (read_node s) as [| |q]; try discriminate. now destruct (T q).
    + apply rbind_panic in H as [H|(y & _ & H)]; [|discriminate]. unfold lift_tree in H.
      destruct (add_line (ptree p) d (to_lnode rline acst n x)) as [|[]|q] eqn:E; try discriminate. now apply add_line_no_panic in E.
Qed.
Lemma prest_crash s : forall p n m, sane p -> lrest p n s = Panic m <->
  exists a l rest p1, text_lines s = a ++ l :: rest /\ pre p a p1 /\ state p1 = SExtensions /\ ~ white l /\ ext_parse_line (pext p1) (indented l) = Panic m.
Proof.
  induction s as [s IH] using (well_founded_induction (Wf_nat.well_founded_ltof _ (@length N))). unfold Wf_nat.ltof in IH. intros p n m Hs.
  destruct (text_lines s) as [|l ls] eqn:E.
  - apply first_line_nil in E. subst. rewrite prest_nil. split; [discriminate|]. intros ([|x0 y0] & l & rest & p1 & H & _); discriminate.
  - destruct (prest_lines rline acst read_root read_node p n s l ls E) as (rest & Hr & Hl & ->). rewrite rbind_panic.
    destruct (planning p) eqn:Hp.
    + split.
      * intros [H|(p1 & H1 & H2)]; [now apply plan_step_quiet in H|]. exfalso.
        rewrite <- group_text_unl in H1. apply (step_plan _ _ _ _ p n) in H1 as [Hp1 _]; auto.
        assert (Hs1 : sane p1). { unfold sane. unfold in_plan in Hp1. destruct (state p1); discriminate. }
        apply IH in H2; auto. destruct H2 as (a & l' & rest' & p2 & _ & Hpre & Hst & _). apply pre_plan in Hpre as [_ ->]; auto.
        unfold in_plan in Hp1. rewrite Hst in Hp1. discriminate.
      * intros (a & l' & rest' & p2 & _ & Hpre & Hst & _). apply pre_plan in Hpre as [_ ->]; auto. unfold in_plan in Hp. rewrite Hst in Hp. discriminate.
    + cbn [lines_chunk fst snd length] in *. rewrite unl_one. split.
      * intros [H|(p1 & H1 & H2)].
        -- apply step_crash in H as (H1 & H2 & H3); auto. exists [], l, ls, p. repeat split; auto. constructor.
        -- apply step_iff in H1; auto. pose proof (sane_step _ _ _ Hs H1) as Hs1. apply IH in H2; auto.
           destruct H2 as (a & l' & rest' & p2 & El & Hpre & H2). rewrite Hr in El. exists (l :: a), l', rest', p2. split; [cbn [app]; now rewrite El|].
           split; [econstructor; eauto|exact H2].
      * intros (a & l' & rest' & p2 & El & Hpre & H). destruct a as [|l0 a]; cbn [app] in El; injection El as -> El'.
        -- left. inversion Hpre; subst. apply step_crash; auto.
        -- right. inversion Hpre as [|? ? p1 ? ? _ H1 H2]; subst. exists p1. pose proof (sane_step _ _ _ Hs H1) as Hs1.
           split; [now apply step_iff|]. apply IH; auto. rewrite El'. eauto 8.
Qed.

Lemma pre_ext a p1 : pre pnew a p1 /\ state p1 = SExtensions <->
  exists blanks vls h ls ws v x, a = blanks ++ vls ++ h :: ls /\ Forall white blanks /\ version_section vls v /\ at_level 0 h (L "=== Extensions")
    /\ only written_line ls ws /\ xrun xp_default ws = Ok x /\ p1 = mkp SExtensions v x builder_empty.
Proof.
  assert (X : forall v tl, pre (mkp SExtensions v xp_default builder_empty) tl p1 -> state p1 = SExtensions ->
    exists ws x, only written_line tl ws /\ xrun xp_default ws = Ok x /\ p1 = mkp SExtensions v x builder_empty).
  { intros v tl H Hst. apply pre_split in H as (b & r & p0 & -> & Hb & Hr). apply bodies_ext in Hb as (x & ws & Ho & Hx & ->).
    destruct Hr as [[-> ->]|(h & tl & p2 & -> & _ & Hh & Hp)].
    - exists ws, x. now rewrite app_nil_r.
    - inversion Hh as [|? ? ? ? ? R|? ? ? ? ? R Hl]; subst; cbn in R; try lia. apply pre_plan in Hp as [-> ->]; auto. discriminate. }
  split.
  - intros [H Hst]. apply pre_split in H as (b & r & p0 & -> & Hb & Hr). apply bodies_initial in Hb as [Hw ->].
    destruct Hr as [[-> ->]|(h & tl & p2 & -> & _ & Hh & Hp)]; [discriminate|].
    inversion Hh as [v x t ? va vb vc HV|st v x t ? R HE|st v x t ? R HP]; subst.
    + apply pre_split in Hp as (b2 & r2 & p0 & -> & Hb & Hr2). apply bodies_version in Hb as (v' & ws & Ho & Hd & ->).
      destruct Hr2 as [[-> ->]|(h2 & tl2 & p3 & -> & _ & Hh2 & Hp2)]; [discriminate|].
      inversion Hh2 as [|? ? ? ? ? R2 HE2|? ? ? ? ? R2 HP2]; subst.
      * apply X in Hp2 as (ws2 & x2 & Ho2 & Hx2 & ->); auto. exists b, (h :: b2), h2, tl2, ws2, (Some v'), x2.
        split; [now rewrite <- app_comm_cons|]. split; auto. split; [econstructor; eauto|]. auto.
      * apply pre_plan in Hp2 as [-> ->]; auto. discriminate.
    + apply X in Hp as (ws2 & x2 & Ho2 & Hx2 & ->); auto. exists b, [], h, tl, ws2, None, x2. split; auto. split; auto. split; [constructor|]. auto.
    + apply pre_plan in Hp as [-> ->]; auto. discriminate.
  - intros (blanks & vls & h & ls & ws & v & x & -> & Hb & Hv & Hh & Ho & Hx & ->). split; [|reflexivity].
    assert (Y : exists st, section_rank st < 2 /\ pre pnew (blanks ++ vls) (mkp st v xp_default builder_empty)).
    { assert (B : pre pnew blanks pnew) by (apply pre_bodies; auto; now apply bodies_initial).
      destruct Hv as [|hv a b c lv wv v Hhv Hov Hd].
      - exists SInitial. split; [cbn; lia|]. now rewrite app_nil_r.
      - exists SVersion. split; [cbn; lia|]. eapply pre_app; eauto. econstructor; [|right; apply hd_version; eauto|]; auto.
        apply pre_bodies; auto. apply bodies_version. eauto 6. }
    destruct Y as (st & R & Hpre). rewrite app_assoc. eapply pre_app; eauto.
    econstructor; [|right; apply hd_ext; eauto|]; [destruct st; cbn in R; try lia; reflexivity|]. apply pre_bodies; auto. apply bodies_ext. eauto.
Qed.

(** ** Trees and their numbers *)

Lemma sub_whole_unnumber t : sub_whole t <-> sub_whole (unnumber t).
Proof.
  induction t as [y line ads cs IH] using rnode_ind2. cbn [sub_whole unnumber]. rewrite !fold_all. rewrite !Forall_map. cbn [fst].
  assert (G : Forall sub_whole cs <-> Forall (fun x => sub_whole (unnumber x)) cs).
  { clear - IH. induction IH as [|c cs Hc _ IH]; [split; constructor|]. rewrite !Forall_cons_iff. tauto. }
  rewrite G. reflexivity.
Qed.
Lemma tree_whole_unnumber t : tree_whole t <-> tree_whole (unnumber t).
Proof.
  destruct t as [y line ads cs]. cbn [tree_whole unnumber]. rewrite !Forall_map. cbn [fst].
  assert (G : Forall sub_whole cs <-> Forall (fun x => sub_whole (unnumber x)) cs).
  { split; intros H; (eapply Forall_impl; [|exact H]); intros c; apply sub_whole_unnumber. }
  rewrite G. reflexivity.
Qed.
Lemma trees_whole ts ts' : map unnumber ts = map unnumber ts' -> Forall tree_whole ts -> Forall tree_whole ts'.
Proof.
  intros E H. revert ts' E; induction H as [|t ts H _ IH]; intros [|t' ts'] E; try discriminate; [constructor|]. cbn [map] in E.
  assert (E1 : unnumber t = unnumber t') by congruence. assert (E2 : map unnumber ts = map unnumber ts') by congruence.
  constructor; auto. apply tree_whole_unnumber in H. apply tree_whole_unnumber. now rewrite <- E1.
Qed.

Section Texts.
  Context {F : Floats}.

  Lemma trees_panic reg e ts ts' m : map unnumber ts = map unnumber ts' ->
    rlist (build_plan_rel reg e) ts = Panic m -> rlist (build_plan_rel reg e) ts' = Panic m.
  Proof.
    revert ts'; induction ts as [|t ts IH]; intros [|t' ts'] E; try discriminate. cbn [map] in E.
    assert (E1 : unnumber t = unnumber t') by congruence. assert (E2 : map unnumber ts = map unnumber ts') by congruence. clear E.
    cbn [rlist]. pose proof (build_numbers reg e t) as H. rewrite E1, <- (build_numbers reg e t') in H.
    destruct (build_plan_rel reg e t), (build_plan_rel reg e t'); cbn [norm] in H; try discriminate; cbn [rbind].
    - intros G. apply rbind_panic in G as [G|(v & _ & G)]; [|discriminate]. rewrite (IH _ E2 G). reflexivity.
    - intros G. congruence.
  Qed.

  Lemma text_crash reg s m : parse reg s = Panic m <-> text_crashes reg s m.
  Proof.
    unfold parse, parse_plan. rewrite rbind_panic. unfold text_crashes. split.
    - intros [H|(p' & H & Hb)].
      + left. change (lrest pnew 1 s = Panic m) in H. apply prest_crash in H; [|intros ?; discriminate].
        destruct H as (a & l & rest & p1 & E & Hpre & Hst & Hw & Hx). destruct (proj1 (pre_ext a p1) (conj Hpre Hst))
          as (blanks & vls & h & ls & ws & v & [st e] & -> & Hb & Hv & Hh & Ho & Hr & ->). cbn [ps_ext] in Hx.
        destruct (proj1 (xrun_extensions_iff ws e (only_written _ _ _ Ho)) (ex_intro _ _ Hr)) as (subs & ess & -> & Hs & Ha).
        apply adds_iff in Ha as [C T]. exists blanks, vls, (h :: ls), l, rest, v, (concat ess), e.
        split; [rewrite E, <- !app_assoc; reflexivity|]. split; auto. split; auto. split; [econstructor; eauto|]. split; auto. split; auto.
        eapply declaration_line_crash in Hx; eauto.
      + right. pose proof (read_tree_whole s p' H) as Wh. change (lrest pnew 1 s = Ok p') in H. apply prest_lrun in H.
        apply lrun_split in H as (a & b & p1 & E & Hpre & Hr); [|intros ?; discriminate].
        apply pre_sound in Hpre as (blanks & vls & els & pls & v & es & e & -> & W & V & X & Ad & N1 & N2 & N3 & N4).
        pose proof (adds_wf _ _ _ wf_empty Ad) as We.
        assert (Tr : plan_section (pls ++ b) (finish (ptree p')) /\ pversion p' = v /\ xp_exts (pext p') = e).
        { destruct Hr as [(-> & -> & Hp)|(Hp & Hr)].
          - destruct N4 as [[-> _]|(h & _ & _ & N4)]; [|congruence]. rewrite N3. repeat split; auto. constructor.
          - destruct N4 as [[_ N4]|(h & -> & Hh & _)]; [congruence|].
            destruct (plan_run_sound _ _ _ _ Hp Hr) as (ks & nodes & K1 & K2 & K3 & K4 & K5). rewrite K4, K5. repeat split; auto.
            rewrite N3 in K3. apply add_lines_flatten in K3. cbn in K3. cbn [app].
            apply pl_some with (ks := ks) (gs := filter (fun k => negb (blank (group_text k))) ks); auto; [now apply only_groups|].
            change (finish builder_empty) with (@nil (rnode rline acst)) in K3. cbn in K3. rewrite K3.
            rewrite <- (numbered_snd (1 + N.of_nat (length (blanks ++ vls ++ els ++ [h]))) ks).
            clear - K2. induction K2 as [|k0 x0 ks0 xs0 H0 _ IH0]; [constructor|]. cbn [map]. constructor; auto. now apply reads_means. }
        destruct Tr as (Tr & T1 & T2). unfold build_plan in Hb. apply rbind_panic in Hb as [Hb|(? & _ & Hb)]; [|discriminate].
        rewrite T2 in Hb. apply (proj2 (agrees_trees reg e We _ Wh)) in Hb. apply adds_iff in Ad as [C T].
        exists blanks, vls, els, (pls ++ b), v, es, (finish (ptree p')), e.
        split; [rewrite E, <- !app_assoc; reflexivity|]. repeat (split; [assumption|]). exact Hb.
    - intros [H|H].
      + left. destruct H as (blanks & vls & els & l & rest & v & es & e & E & W & V & X & C & T & D).
        change (lrest pnew 1 s = Panic m). apply prest_crash; [intros ?; discriminate|].
        destruct X as [|h ls subs ess Hh Ho Hs].
        { destruct D as (h & ([|? ?] & a & Q & _) & _); discriminate. }
        assert (Ad : adds exts_empty (concat ess) e) by (apply adds_iff; auto).
        destruct (proj2 (xrun_extensions_iff (concat subs) e (only_written _ _ _ Ho))) as (st & Hx); [eauto 6|].
        assert (Hl : ~ white l).
        { destruct D as (h' & _ & [[_ (t & tr & r & Hl & _)]|[_ (t & tr & r & Hl & _)]]); apply (level1_written l); now exists t. }
        destruct (proj2 (pre_ext (blanks ++ vls ++ h :: ls) (mkp SExtensions v (mk_xp st e) builder_empty))) as [Hpre Hst].
        { exists blanks, vls, h, ls, (concat subs), v, (mk_xp st e). auto 10. }
        exists (blanks ++ vls ++ h :: ls), l, rest, (mkp SExtensions v (mk_xp st e) builder_empty).
        split; [rewrite E, <- !app_assoc; reflexivity|]. split; auto. split; auto. split; auto. cbn [ps_ext].
        eapply declaration_line_crash; eauto.
      + right. destruct H as (blanks & vls & els & pls & v & es & trees & e & E & W & V & X & C & T & Pl & D).
        pose proof (proj2 (adds_iff es e) (conj C T)) as Ad. pose proof (adds_wf _ _ _ wf_empty Ad) as We.
        destruct (text_run s blanks vls els pls _ es e trees E W V X Ad Pl) as (p' & Hr & R1 & R2 & R3).
        apply prest_lrun in Hr. assert (Pt : parse_text rline acst read_root read_node pnew s = Ok p') by exact Hr.
        exists p'. split; [exact Pt|]. unfold build_plan. rewrite R2. apply rbind_panic. left.
        apply (trees_panic reg e trees); [now symmetry|]. apply (proj2 (agrees_trees reg e We _ (trees_whole _ _ R3 (read_tree_whole s p' Pt)))). exact D.
  Qed.
End Texts.
