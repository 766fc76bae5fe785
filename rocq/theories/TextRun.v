(** The line parser, section by section. *)
From Coq Require Import String List NArith ZArith Bool Lia PeanoNat Sorted.
From Verif Require Import Base BaseFacts Peg OMap SimpleExt SimpleExtFacts Out ExtLines Lines LinesFacts SpecLines Tree SpecTree TreeFacts
  Names Literals RelGrammar Registry Rels RelRead Structural StructuralFacts LineView ReadFacts Plan BuildFacts Pest SpecGrammar Props_Grammar
  Props_Consumed SpecMeaning MeaningFacts MeaningRels SpecText TextFacts TextDecls.
Import ListNotations.
Local Open Scope string_scope.
Local Open Scope list_scope.
Local Open Scope nat_scope.

Notation mkp := (mk_parser rline acst).
Notation pnew := (ps_new rline acst).
Notation state := (ps_state rline acst).
Notation pversion := (ps_version rline acst).
Notation pext := (ps_ext rline acst).
Notation ptree := (ps_tree rline acst).
Notation planning := (in_plan rline acst).
Notation lstep := (step rline acst read_root read_node).
Notation lrest := (prest rline acst read_root read_node).

(** ** The loop over the lines *)

Inductive lrun : lparser -> N -> list (list N) -> lparser -> Prop :=
| lr_nil p n : lrun p n [] p
| lr_step p n l ls p1 p' : lstep p n (unl (l :: fst (lines_chunk (planning p) l ls))) = Ok p1 ->
    lrun p1 (n + N.of_nat (S (length (fst (lines_chunk (planning p) l ls))))) (snd (lines_chunk (planning p) l ls)) p' ->
    lrun p n (l :: ls) p'.

Lemma prest_lrun s : forall p n p', lrest p n s = Ok p' <-> lrun p n (text_lines s) p'.
Proof.
  induction s as [s IH] using (well_founded_induction (Wf_nat.well_founded_ltof _ (@length N))). unfold Wf_nat.ltof in IH. intros p n p'.
  destruct (text_lines s) as [|l ls] eqn:E.
  - apply first_line_nil in E. subst. rewrite prest_nil. split; [intros [= ->]; constructor|]. inversion 1; reflexivity.
  - destruct (prest_lines rline acst read_root read_node p n s l ls E) as (rest & Hr & Hl & ->). split.
    + intros H. apply rbind_ok in H as (p1 & H1 & H2). eapply lr_step; eauto. rewrite <- Hr. now apply IH.
    + intros H. inversion_clear H as [|? ? ? ? p1 ? H1 H2]. rewrite H1. cbn [rbind]. apply IH; auto. now rewrite Hr.
Qed.

Lemma unl_one p n l : lstep p n (unl [l]) = lstep p n l.
Proof. cbn [unl map concat]. rewrite app_nil_r. apply step_nl. Qed.
Lemma lrun_before p n l ls p' : planning p = false ->
  lrun p n (l :: ls) p' <-> exists p1, lstep p n l = Ok p1 /\ lrun p1 (n + 1) ls p'.
Proof.
  intros Hp. split.
  - intros H. inversion_clear H as [|? ? ? ? p1 ? H1 H2]. rewrite Hp in *. cbn [lines_chunk fst snd length] in *. rewrite unl_one in H1. eauto.
  - intros (p1 & H1 & H2). eapply lr_step; rewrite Hp; cbn [lines_chunk fst snd length]; [rewrite unl_one; eauto|exact H2].
Qed.

(** ** Lines before the plan *)

Inductive body : lparser -> list N -> lparser -> Prop :=
| bo_white p l : white l -> body p l p
| bo_version v x t l v' : ~ white l -> details v [l] v' -> body (mkp SVersion (Some v) x t) l (mkp SVersion (Some v') x t)
| bo_ext v x t l x' : ~ white l -> ext_parse_line x (indented l) = Ok x' -> body (mkp SExtensions v x t) l (mkp SExtensions v x' t).
Inductive head : lparser -> list N -> lparser -> Prop :=
| hd_version v x t h a b c : version_header h a b c ->
    head (mkp SInitial v x t) h (mkp SVersion (Some (mk_version a b c [] [])) x t)
| hd_ext st v x t h : section_rank st < 2 -> at_level 0 h (L "=== Extensions") -> head (mkp st v x t) h (mkp SExtensions v x t)
| hd_plan st v x t h : section_rank st < 3 -> at_level 0 h (L "=== Plan") -> head (mkp st v x t) h (mkp SPlan v x t).
Definition sane (p : lparser) : Prop := state p = SVersion -> pversion p <> None.

Lemma not_white_text d l t c r : at_level d l t -> t = c :: r -> ~ white l.
Proof. intros H -> Hw. apply white_level in Hw. destruct (at_level_fun _ _ _ _ _ H Hw). discriminate. Qed.
Lemma detail_level l key x : detail l key x -> exists t, at_level 1 l t.
Proof. intros (t & w & w' & w'' & H & _). eauto. Qed.
Lemma details_one v l v' : details v [l] v' <->
  (exists x, detail l "producer" x /\ v' = mk_version (v_major v) (v_minor v) (v_patch v) x (v_git v)) \/
  (exists x, detail l "git_hash" x /\ v' = mk_version (v_major v) (v_minor v) (v_patch v) (v_producer v) x).
Proof.
  split.
  - intros H. inversion H as [|a b c x y ? value ? ? H1 H2|a b c x y ? value ? ? H1 H2]; subst; inversion H2; subst; cbn; eauto.
  - destruct v as [a b c x y]. cbn. intros [(z & H & ->)|(z & H & ->)]; [eapply de_producer|eapply de_git]; eauto; constructor.
Qed.

Lemma step_iff p n l p1 : planning p = false -> sane p -> lstep p n l = Ok p1 <-> body p l p1 \/ head p l p1.
Proof.
  intros Hp Hs. unfold step. destruct (blank l) eqn:B.
  { apply blank_iff in B. split; [intros [= <-]; left; now constructor|]. intros [H|H].
    - inversion H; subst; auto; contradiction.
    - exfalso. destruct H as [v x t h a b c H|st v x t h _ H|st v x t h _ H].
      + apply version_header_level in H as (? & _ & H). contradiction.
      + eapply not_white_text in H; [contradiction|reflexivity].
      + eapply not_white_text in H; [contradiction|reflexivity]. }
  apply blank_false in B. pose proof (at_level_indented l) as Hl. unfold parse_line. destruct (indented l) as [d s] eqn:Ei. cbn [fst snd] in Hl.
  assert (HH : forall p', head p l p' -> d = 0 /\ starts_with (L "===") s = true).
  { intros p' H. destruct H as [v x t h a b c H|st v x t h _ H|st v x t h _ H].
    - apply version_header_level in H as (r & H & _). destruct (at_level_fun _ _ _ _ _ Hl H) as [-> ->]. auto.
    - destruct (at_level_fun _ _ _ _ _ Hl H) as [-> ->]. auto.
    - destruct (at_level_fun _ _ _ _ _ Hl H) as [-> ->]. auto. }
  assert (BB : forall p', body p l p' -> d = 0 -> starts_with (L "===") s = false).
  { intros p' H ->. inversion H as [? ? H1|v x t ? v' _ H1|v x t ? x' _ H1]; subst.
    - contradiction.
    - apply details_one in H1 as [(y & H1 & _)|(y & H1 & _)]; apply detail_level in H1 as (u & H1); destruct (at_level_fun _ _ _ _ _ Hl H1); discriminate.
    - apply ext_line_iff in H1; auto. destruct H1 as [(st & Ho & _)|[(_ & u & e & H2 & _)|(k & _ & u & e & H2 & _)]].
      + destruct Ho as [h Ho|h Ho|h Ho|h Ho]; destruct (at_level_fun _ _ _ _ _ Hl Ho) as [_ ->]; reflexivity.
      + destruct H2 as (t' & ? & ? & H2 & _). destruct (at_level_fun _ _ _ _ _ Hl H2); discriminate.
      + destruct H2 as (t' & ? & ? & ? & ? & H2 & _). destruct (at_level_fun _ _ _ _ _ Hl H2); discriminate. }
  destruct (match d with 0 => starts_with (L "===") s | S _ => false end) eqn:E.
  - destruct d as [|d]; [|discriminate]. destruct p as [st v x t]. cbn [ps_state ps_version ps_ext ps_tree] in *. split.
    + intros H. right. apply rbind_ok in H as ([st' v'] & H1 & H). cbn [fst snd] in H.
      destruct (section_rank st' <=? section_rank st) eqn:R; [discriminate|]. injection H as <-. apply Nat.leb_gt in R.
      apply (section_header_iff _ _ _ _ _ _ Hl) in H1. cbn [ps_version] in H1.
      destruct H1 as [(-> & -> & ->)|[(-> & -> & ->)|(a & b & c & H1 & -> & ->)]].
      * now constructor.
      * now constructor.
      * destruct st; cbn in R; try lia. now constructor.
    + intros [H|H]; [apply BB in H; congruence|].
      inversion H as [? ? ? ? a b c H1|? ? ? ? ? R H1|? ? ? ? ? R H1]; subst.
      * assert (G : parse_section_header rline acst (mkp SInitial v x t) n s = Ok (SVersion, Some (mk_version a b c [] []))).
        { apply (section_header_iff _ _ _ _ _ _ Hl). right; right. eauto 6. }
        rewrite G. reflexivity.
      * destruct (at_level_fun _ _ _ _ _ Hl H1) as [_ ->].
        assert (G : parse_section_header rline acst (mkp st v x t) n (L "=== Extensions") = Ok (SExtensions, v)).
        { apply (section_header_iff _ _ _ _ _ _ Hl). auto. }
        rewrite G. cbn [rbind fst snd]. change (section_rank SExtensions) with 2. apply Nat.leb_gt in R. now rewrite R.
      * destruct (at_level_fun _ _ _ _ _ Hl H1) as [_ ->].
        assert (G : parse_section_header rline acst (mkp st v x t) n (L "=== Plan") = Ok (SPlan, v)).
        { apply (section_header_iff _ _ _ _ _ _ Hl). auto. }
        rewrite G. cbn [rbind fst snd]. change (section_rank SPlan) with 3. apply Nat.leb_gt in R. now rewrite R.
  - assert (NH : forall p', ~ head p l p') by (intros p' H; apply HH in H as [-> H]; congruence).
    assert (R : body p l p1 \/ head p l p1 <-> body p l p1) by (split; [intros [H|H]; [auto|now apply NH in H]|auto]). rewrite R. clear R NH HH BB.
    assert (TS : trim s <> [] \/ d <> 0).
    { destruct d; [left|now right]. intros T. apply trim_nil in T. apply white_iff in T. apply B.
      destruct Hl as (w & -> & Hw & _). change (white (s ++ w)). apply Forall_app. auto. }
    unfold in_plan in Hp. destruct p as [st v x t]. unfold sane in Hs. cbn [ps_state ps_version ps_ext ps_tree] in *.
    destruct st; try discriminate.
    + split.
      * destruct d; [destruct (trim s); [destruct TS; congruence|discriminate]|discriminate].
      * intros H. inversion H; contradiction.
    + destruct v as [v|]; [|now destruct (Hs eq_refl)].
      assert (X : body (mkp SVersion (Some v) x t) l p1 <-> exists v', details v [l] v' /\ p1 = mkp SVersion (Some v') x t).
      { split; [intros H; inversion H; subst; [contradiction|eauto]|]. intros (v' & H & ->). now constructor. }
      rewrite X. clear X. destruct d as [|[|d]].
      * destruct (trim s); [destruct TS; congruence|]. split; [discriminate|]. intros (v' & H & _).
        apply details_one in H as [(y & H & _)|(y & H & _)]; apply detail_level in H as (u & H); destruct (at_level_fun _ _ _ _ _ Hl H); discriminate.
      * rewrite rbind_iff. setoid_rewrite (detail_iff n v l s Hl). setoid_rewrite details_one.
        split; intros (v' & H1 & H2); exists v'; (split; [exact H1|]); congruence.
      * split; [discriminate|]. intros (v' & H & _).
        apply details_one in H as [(y & H & _)|(y & H & _)]; apply detail_level in H as (u & H); destruct (at_level_fun _ _ _ _ _ Hl H); discriminate.
    + assert (X : body (mkp SExtensions v x t) l p1 <-> exists x', ext_parse_line x (d, s) = Ok x' /\ p1 = mkp SExtensions v x' t).
      { rewrite <- Ei. split; [intros H; inversion H; subst; [contradiction|eauto]|]. intros (x' & H & ->). now constructor. }
      rewrite X. clear X. rewrite rbind_iff. unfold lift_ext. split.
      * intros (x' & H1 & H2). exists x'. destruct (ext_parse_line x (d, s)) as [y| |]; try discriminate. split; congruence.
      * intros (x' & -> & ->). eauto.
Qed.

Inductive pre : lparser -> list (list N) -> lparser -> Prop :=
| pre_nil p : pre p [] p
| pre_cons p l p1 ls p2 : planning p = false -> body p l p1 \/ head p l p1 -> pre p1 ls p2 -> pre p (l :: ls) p2.

Lemma sane_step p l p1 : sane p -> body p l p1 \/ head p l p1 -> sane p1.
Proof. intros H [H1|H1]; inversion H1; subst; auto; unfold sane; cbn [ps_state ps_version]; intros E E'; discriminate. Qed.

Lemma lrun_split ls : forall p n p', sane p -> lrun p n ls p' -> exists a b p1, ls = a ++ b /\ pre p a p1 /\
  (b = [] /\ p' = p1 /\ planning p1 = false \/ planning p1 = true /\ lrun p1 (n + N.of_nat (length a)) b p').
Proof.
  induction ls as [|l ls IH]; intros p n p' Hs H.
  - inversion H; subst. exists [], [], p'. repeat split; auto; [constructor|]. rewrite N.add_0_r. destruct (planning p'); auto.
  - destruct (planning p) eqn:Hp.
    + exists [], (l :: ls), p. repeat split; auto; [constructor|]. right. rewrite N.add_0_r. auto.
    + apply lrun_before in H as (p1 & H1 & H2); auto. apply step_iff in H1; auto.
      destruct (IH _ _ _ (sane_step _ _ _ Hs H1) H2) as (a & b & p2 & -> & Ha & Hb). exists (l :: a), b, p2. repeat split; auto.
      * econstructor; eauto.
      * destruct Hb as [Hb|[Hb1 Hb2]]; auto. right. split; auto. cbn [length].
        replace (n + N.of_nat (S (length a)))%N with (n + 1 + N.of_nat (length a))%N by lia. exact Hb2.
Qed.
Lemma lrun_pre p a p1 : pre p a p1 -> sane p -> forall n b p', lrun p1 (n + N.of_nat (length a)) b p' -> lrun p n (a ++ b) p'.
Proof.
  induction 1 as [p|p l p1 ls p2 Hp H1 _ IH]; intros Hs n b p' H.
  - now rewrite N.add_0_r in H.
  - cbn [app]. apply lrun_before; auto. exists p1. split; [now apply step_iff|]. apply IH; [eapply sane_step; eauto|].
    cbn [length] in H. now replace (n + 1 + N.of_nat (length ls))%N with (n + N.of_nat (S (length ls)))%N by lia.
Qed.

(** ** Bodies of sections *)

Inductive bodies : lparser -> list (list N) -> lparser -> Prop :=
| bs_nil p : bodies p [] p
| bs_cons p l p1 ls p2 : body p l p1 -> bodies p1 ls p2 -> bodies p (l :: ls) p2.
Lemma body_state p l p1 : body p l p1 -> state p1 = state p.
Proof. now destruct 1. Qed.
Lemma body_planning p l p1 : body p l p1 -> planning p1 = planning p.
Proof. now destruct 1. Qed.
Lemma bodies_planning p l p1 : bodies p l p1 -> planning p1 = planning p.
Proof. induction 1; auto. apply body_planning in H. congruence. Qed.

Lemma pre_split p ls p1 : pre p ls p1 -> exists b r p0, ls = b ++ r /\ bodies p b p0 /\
  (r = [] /\ p1 = p0 \/ exists h tl p2, r = h :: tl /\ planning p0 = false /\ head p0 h p2 /\ pre p2 tl p1).
Proof.
  induction 1 as [p|p l p1 ls p2 Hp [H|H] Hpre IH].
  - exists [], [], p. repeat split; auto. constructor.
  - destruct IH as (b & r & p0 & -> & Hb & Hr). exists (l :: b), r, p0. repeat split; auto. econstructor; eauto.
  - exists [], (l :: ls), p. repeat split; auto; [constructor|]. right. exists l, ls, p1. auto.
Qed.
Lemma pre_app p a p1 b p2 : pre p a p1 -> pre p1 b p2 -> pre p (a ++ b) p2.
Proof. induction 1; auto. intros. cbn. econstructor; eauto. Qed.
Lemma pre_bodies p b p1 : planning p = false -> bodies p b p1 -> pre p b p1.
Proof. intros Hp. induction 1; [constructor|]. econstructor; eauto. apply IHbodies. apply body_planning in H. congruence. Qed.
Lemma pre_head p h p1 : planning p = false -> head p h p1 -> pre p [h] p1.
Proof. intros Hp H. econstructor; eauto. constructor. Qed.
Lemma pre_plan p ls p1 : planning p = true -> pre p ls p1 -> ls = [] /\ p1 = p.
Proof. intros Hp H. destruct H; auto. congruence. Qed.

Lemma bodies_initial v x t b p0 : bodies (mkp SInitial v x t) b p0 <-> Forall white b /\ p0 = mkp SInitial v x t.
Proof.
  split.
  - intros H. remember (mkp SInitial v x t) as p eqn:E. induction H as [p|p l p1 ls p2 H _ IH]; [auto|]. subst p.
    inversion H; subst. destruct IH as [I1 I2]; auto.
  - intros [H ->]. induction H; [constructor|]. econstructor; eauto. now constructor.
Qed.
Lemma details_cons v l v' ws v'' : details v [l] v' -> details v' ws v'' -> details v (l :: ws) v''.
Proof.
  intros H H'. inversion H as [|a b c x y ? value ? ? H1 H2|a b c x y ? value ? ? H1 H2]; subst; inversion H2; subst;
    [eapply de_producer|eapply de_git]; eauto.
Qed.
Lemma details_uncons v l ws v'' : details v (l :: ws) v'' -> exists v', details v [l] v' /\ details v' ws v''.
Proof.
  intros H. inversion H as [|a b c x y ? value ? ? H1 H2|a b c x y ? value ? ? H1 H2]; subst; eexists; (split; [|exact H2]);
    [eapply de_producer|eapply de_git]; eauto; constructor.
Qed.
Lemma bodies_version v x t b p0 : bodies (mkp SVersion (Some v) x t) b p0 <->
  exists v' ws, only written_line b ws /\ details v ws v' /\ p0 = mkp SVersion (Some v') x t.
Proof.
  split.
  - intros H. remember (mkp SVersion (Some v) x t) as p eqn:E. revert v E. induction H as [p|p l p1 ls p2 H _ IH]; intros v E; subst p.
    + exists v, []. repeat split; constructor.
    + inversion H as [? ? Hw|? ? ? ? v1 Hw Hd|]; subst.
      * destruct (IH v eq_refl) as (v' & ws & I1 & I2 & I3). exists v', ws. repeat split; auto. apply on_skip; auto.
      * destruct (IH v1 eq_refl) as (v' & ws & I1 & I2 & I3). exists v', (l :: ws). repeat split; auto. { now apply on_keep. }
        eapply details_cons; eauto.
  - intros (v' & ws & Ho & Hd & ->). revert v Hd. induction Ho as [|l b ws Hl _ IH|l b ws Hl _ IH]; intros v Hd.
    + inversion Hd; subst. constructor.
    + apply details_uncons in Hd as (v1 & H1 & H2). econstructor; [|apply IH; eauto]. now constructor.
    + econstructor; [|apply IH; eauto]. constructor. apply blank_iff. destruct (blank l) eqn:E; auto. apply blank_false in E. contradiction.
Qed.
Lemma bodies_ext v x t b p0 : bodies (mkp SExtensions v x t) b p0 <->
  exists x' ws, only written_line b ws /\ xrun x ws = Ok x' /\ p0 = mkp SExtensions v x' t.
Proof.
  split.
  - intros H. remember (mkp SExtensions v x t) as p eqn:E. revert x E. induction H as [p|p l p1 ls p2 H _ IH]; intros x E; subst p.
    + exists x, []. repeat split; constructor.
    + inversion H as [? ? Hw| |? ? ? ? x1 Hw Hd]; subst.
      * destruct (IH x eq_refl) as (x' & ws & I1 & I2 & I3). exists x', ws. repeat split; auto. apply on_skip; auto.
      * destruct (IH x1 eq_refl) as (x' & ws & I1 & I2 & I3). exists x', (l :: ws). repeat split; auto. { now apply on_keep. }
        cbn [xrun]. now rewrite Hd.
  - intros (x' & ws & Ho & Hd & ->). revert x Hd. induction Ho as [|l b ws Hl _ IH|l b ws Hl _ IH]; intros x Hd.
    + injection Hd as <-. constructor.
    + cbn [xrun] in Hd. apply rbind_ok in Hd as (x1 & H1 & H2). econstructor; [|apply IH; eauto]. now constructor.
    + econstructor; [|apply IH; eauto]. constructor. apply blank_iff. destruct (blank l) eqn:E; auto. apply blank_false in E. contradiction.
Qed.
Lemma only_written {X} (P : X -> Prop) l m : only P l m -> Forall P m.
Proof. induction 1; auto. Qed.

(** ** Everything before the plan *)

Definition ends (v : option version) (e : exts) (pls : list (list N)) (p1 : lparser) : Prop :=
  pversion p1 = v /\ xp_exts (pext p1) = e /\ ptree p1 = builder_empty /\
  (pls = [] /\ planning p1 = false \/ exists h, pls = [h] /\ at_level 0 h (L "=== Plan") /\ planning p1 = true).

Lemma ext_sound v ls p1 : pre (mkp SExtensions v xp_default builder_empty) ls p1 -> exists b pls subs ess e,
  ls = b ++ pls /\ only written_line b (concat subs) /\ Forall2 subsection subs ess /\ adds exts_empty (concat ess) e /\ ends v e pls p1.
Proof.
  intros H. apply pre_split in H as (b & r & p0 & -> & Hb & Hr). apply bodies_ext in Hb as ([st e] & ws & Ho & Hx & ->).
  destruct (proj1 (xrun_extensions_iff ws e (only_written _ _ _ Ho)) (ex_intro _ _ Hx)) as (subs & ess & -> & Hs & Ha).
  exists b, r, subs, ess, e. repeat split; auto.
  - destruct Hr as [[-> ->]|(h & tl & p2 & -> & _ & Hh & Hp)]; auto. inversion Hh as [|? ? ? ? ? R|? ? ? ? ? R Hl]; subst; cbn in R; try lia.
    apply pre_plan in Hp as [-> ->]; auto.
  - destruct Hr as [[-> ->]|(h & tl & p2 & -> & _ & Hh & Hp)]; auto. inversion Hh as [|? ? ? ? ? R|? ? ? ? ? R Hl]; subst; cbn in R; try lia.
    apply pre_plan in Hp as [-> ->]; auto.
  - destruct Hr as [[-> ->]|(h & tl & p2 & -> & _ & Hh & Hp)]; auto. inversion Hh as [|? ? ? ? ? R|? ? ? ? ? R Hl]; subst; cbn in R; try lia.
    apply pre_plan in Hp as [-> ->]; auto.
  - destruct Hr as [[-> ->]|(h & tl & p2 & -> & _ & Hh & Hp)]; auto. inversion Hh as [|? ? ? ? ? R|? ? ? ? ? R Hl]; subst; cbn in R; try lia.
    apply pre_plan in Hp as [-> ->]; auto. right. exists h. auto.
Qed.
Lemma rest_sound st v r p1 : section_rank st < 2 -> (r = [] /\ p1 = mkp st v xp_default builder_empty \/ exists h tl p2, r = h :: tl /\
    head (mkp st v xp_default builder_empty) h p2 /\ pre p2 tl p1 /\ state p2 <> SVersion) ->
  exists els pls es e, r = els ++ pls /\ extension_section els es /\ adds exts_empty es e /\ ends v e pls p1.
Proof.
  intros R [[-> ->]|(h & tl & p2 & -> & Hh & Hp & Hn)].
  - exists [], [], [], exts_empty. split; [reflexivity|]. split; [constructor|]. split; [constructor|]. repeat split.
    left. split; auto. destruct st; cbn in R; auto; lia.
  - inversion Hh as [|? ? ? ? ? R' Hl|? ? ? ? ? R' Hl]; subst.
    + cbn in Hn. congruence.
    + apply ext_sound in Hp as (b & pls & subs & ess & e & -> & Ho & Hs & Ha & He). exists (h :: b), pls, (concat ess), e.
      repeat split; auto; try apply He. econstructor; eauto.
    + apply pre_plan in Hp as [-> ->]; auto. exists [], [h], [], exts_empty.
      split; [reflexivity|]. split; [constructor|]. split; [constructor|]. repeat split. right. exists h. auto.
Qed.
Lemma pre_sound a p1 : pre pnew a p1 -> exists blanks vls els pls v es e,
  a = blanks ++ vls ++ els ++ pls /\ Forall white blanks /\ version_section vls v /\ extension_section els es /\ adds exts_empty es e /\ ends v e pls p1.
Proof.
  intros H. apply pre_split in H as (b & r & p0 & -> & Hb & Hr). apply bodies_initial in Hb as [Hw ->].
  assert (C : (exists h tl p2, r = h :: tl /\ head pnew h p2 /\ pre p2 tl p1 /\ state p2 = SVersion) \/
    (r = [] /\ p1 = mkp SInitial None xp_default builder_empty \/ exists h tl p2, r = h :: tl /\
    head (mkp SInitial None xp_default builder_empty) h p2 /\ pre p2 tl p1 /\ state p2 <> SVersion)).
  { destruct Hr as [Hr|(h & tl & p2 & -> & _ & Hh & Hp)]; auto. destruct (state p2) eqn:E; try (right; right; exists h, tl, p2; repeat split; auto; congruence).
    left. exists h, tl, p2. auto. }
  destruct C as [(h & tl & p2 & -> & Hh & Hp & Hst)|C].
  - inversion Hh; subst; try discriminate. clear Hst. apply pre_split in Hp as (b2 & r2 & p0 & -> & Hb & Hr2).
    apply bodies_version in Hb as (v' & ws & Ho & Hd & ->).
    destruct (rest_sound SVersion (Some v') r2 p1) as (els & pls & es & e & -> & He & Ha & Hn); [cbn; lia| |].
    { destruct Hr2 as [Hr2|(h2 & tl2 & p3 & -> & _ & Hh2 & Hp2)]; auto. right. exists h2, tl2, p3. repeat split; auto. inversion Hh2; subst; discriminate. }
    exists b, (h :: b2), els, pls, (Some v'), es, e. repeat split; auto; try apply Hn. econstructor; eauto.
  - apply rest_sound in C as (els & pls & es & e & -> & He & Ha & Hn); [|cbn; lia].
    exists b, [], els, pls, None, es, e. repeat split; auto; try apply Hn. constructor.
Qed.

Lemma rest_complete st v els pls es e : section_rank st < 2 -> extension_section els es -> adds exts_empty es e ->
  pls = [] \/ (exists h, pls = [h] /\ at_level 0 h (L "=== Plan")) ->
  exists p1, pre (mkp st v xp_default builder_empty) (els ++ pls) p1 /\ ends v e pls p1.
Proof.
  intros R He Ha Hp.
  assert (X : exists st1 x, section_rank st1 < 3 /\ xp_exts x = e /\ pre (mkp st v xp_default builder_empty) els (mkp st1 v x builder_empty)).
  { destruct He as [|h ls subs ess Hl Ho Hs].
    - inversion Ha; subst. exists st, xp_default. repeat split; [lia|constructor].
    - destruct (proj2 (xrun_extensions_iff (concat subs) e (only_written _ _ _ Ho))) as (xs & Hx); [eauto 6|].
      exists SExtensions, (mk_xp xs e). repeat split; [cbn; lia|].
      econstructor; [|right; apply hd_ext; eauto|]; [destruct st; cbn in R; try lia; reflexivity|].
      apply pre_bodies; auto. apply bodies_ext. eauto. }
  destruct X as (st1 & x & R1 & Ex & Hpre). assert (Hst : planning (mkp st1 v x builder_empty) = false) by (destruct st1; cbn in R1; try lia; reflexivity).
  destruct Hp as [->|(h & -> & Hh)].
  - exists (mkp st1 v x builder_empty). rewrite app_nil_r. split; auto. repeat split; auto.
  - exists (mkp SPlan v x builder_empty). split.
    + eapply pre_app; eauto. apply pre_head; auto. now constructor.
    + repeat split; auto. right. exists h. auto.
Qed.
Lemma pre_complete blanks vls els pls v es e : Forall white blanks -> version_section vls v -> extension_section els es -> adds exts_empty es e ->
  pls = [] \/ (exists h, pls = [h] /\ at_level 0 h (L "=== Plan")) ->
  exists p1, pre pnew (blanks ++ vls ++ els ++ pls) p1 /\ ends v e pls p1.
Proof.
  intros Hb Hv He Ha Hp.
  assert (X : exists st, section_rank st < 2 /\ pre pnew (blanks ++ vls) (mkp st v xp_default builder_empty)).
  { assert (B : pre pnew blanks pnew) by (apply pre_bodies; auto; now apply bodies_initial).
    destruct Hv as [|h a b c ls ws v Hh Ho Hd].
    - exists SInitial. split; [cbn; lia|]. now rewrite app_nil_r.
    - exists SVersion. split; [cbn; lia|]. eapply pre_app; eauto. econstructor; [|right; apply hd_version; eauto|]; auto.
      apply pre_bodies; auto. apply bodies_version. eauto 6. }
  destruct X as (st & R & Hpre). destruct (rest_complete st v els pls es e R He Ha Hp) as (p1 & H1 & H2).
  exists p1. split; auto. rewrite app_assoc. eapply pre_app; eauto.
Qed.
