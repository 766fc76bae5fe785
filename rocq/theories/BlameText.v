(** The line reported for a text is the first that has no meaning. *)
From Coq Require Import String List NArith ZArith Bool Lia PeanoNat Sorted.
From Verif Require Import Base BaseFacts Peg OMap SimpleExt SimpleExtFacts Out ExtLines Lines LinesFacts SpecLines Tree SpecTree TreeFacts
  Names Literals RelGrammar Registry Rels RelRead Structural StructuralFacts LineView ReadFacts Plan BuildFacts Pest SpecGrammar Props_Grammar
  Props_Consumed CrashFacts SpecMeaning MeaningFacts MeaningRels SpecText TextFacts TextDecls TextRun TextPlan SpecCrashes CrashesFacts CrashesTrees CrashesText
  SpecBlame BlameFacts.
Import ListNotations.
Local Open Scope string_scope.
Local Open Scope list_scope.
Local Open Scope nat_scope.

(** ** Where the loop stops *)

Inductive lfail : lparser -> N -> list (list N) -> perror -> Prop :=
| lf_here p n l ls d : lstep p n (unl (l :: fst (lines_chunk (planning p) l ls))) = Err d -> lfail p n (l :: ls) d
| lf_later p n l ls p1 d : lstep p n (unl (l :: fst (lines_chunk (planning p) l ls))) = Ok p1 ->
    lfail p1 (n + N.of_nat (S (length (fst (lines_chunk (planning p) l ls))))) (snd (lines_chunk (planning p) l ls)) d ->
    lfail p n (l :: ls) d.
Lemma prest_lfail s : forall p n d, lrest p n s = Err d <-> lfail p n (text_lines s) d.
Proof.
  induction s as [s IH] using (well_founded_induction (Wf_nat.well_founded_ltof _ (@length N))). unfold Wf_nat.ltof in IH. intros p n d.
  destruct (text_lines s) as [|l ls] eqn:E.
  - apply first_line_nil in E. subst. rewrite prest_nil. split; [discriminate|inversion 1].
  - destruct (prest_lines rline acst read_root read_node p n s l ls E) as (rest & Hr & Hl & ->). split.
    + intros H. apply rbind_err in H as [H|(p1 & H1 & H2)]; [now apply lf_here|]. eapply lf_later; eauto. rewrite <- Hr. now apply IH.
    + intros H. inversion_clear H as [? ? ? ? ? H1|? ? ? ? p1 ? H1 H2]; rewrite H1; cbn [rbind]; [reflexivity|]. apply IH; auto. now rewrite Hr.
Qed.
Lemma lfail_split ls : forall p n d, sane p -> lfail p n ls d ->
  (exists a l rest p1, ls = a ++ l :: rest /\ pre p a p1 /\ planning p1 = false /\ lstep p1 (n + N.of_nat (length a)) l = Err d)
  \/ exists a b p1, ls = a ++ b /\ pre p a p1 /\ planning p1 = true /\ lfail p1 (n + N.of_nat (length a)) b d.
Proof.
  induction ls as [|l ls IH]; intros p n d Hs H; [inversion H|]. destruct (planning p) eqn:Hp.
  - right. exists [], (l :: ls), p. rewrite N.add_0_r. repeat split; auto. constructor.
  - inversion_clear H as [? ? ? ? ? H1|? ? ? ? p1 ? H1 H2]; rewrite Hp in *; cbn [lines_chunk fst snd length] in *; rewrite unl_one in H1.
    + left. exists [], l, ls, p. rewrite N.add_0_r. repeat split; auto. constructor.
    + change (N.of_nat 1) with 1%N in H2. apply step_iff in H1; auto. pose proof (sane_step _ _ _ Hs H1) as Hs1.
      assert (Q : forall a : list (list N), (n + 1 + N.of_nat (length a) = n + N.of_nat (length (l :: a)))%N) by (intros a; cbn [length]; lia).
      destruct (IH _ _ _ Hs1 H2) as [(a & l' & rest & p2 & -> & Ha & Hb & Hc)|(a & b & p2 & -> & Ha & Hb & Hc)]; rewrite (Q a) in Hc.
      * left. exists (l :: a), l', rest, p2. repeat split; auto. econstructor; eauto.
      * right. exists (l :: a), b, p2. repeat split; auto. econstructor; eauto.
Qed.
Lemma lfail_pre p a p1 : pre p a p1 -> sane p -> forall n b d, lfail p1 (n + N.of_nat (length a)) b d -> lfail p n (a ++ b) d.
Proof.
  induction 1 as [p|p l p1 ls p2 Hp H1 _ IH]; intros Hs n b d H.
  - now rewrite N.add_0_r in H.
  - cbn [app]. eapply lf_later; rewrite Hp; cbn [lines_chunk fst snd length]; [rewrite unl_one; apply step_iff; eauto|].
    apply IH; [eapply sane_step; eauto|]. cbn [length] in H. now replace (n + N.of_nat 1 + N.of_nat (length ls))%N with (n + N.of_nat (S (length ls)))%N by lia.
Qed.
Lemma pre_next p a p1 : pre p a p1 -> sane p -> forall b p2, pre p (a ++ b) p2 -> pre p1 b p2.
Proof.
  induction 1 as [p|p l p1 ls p2 Hp H1 _ IH]; intros Hs b p3 H; [exact H|]. cbn [app] in H. inversion H as [|? ? q ? ? _ H2 H3]; subst.
  assert (q = p1). { apply (proj2 (step_iff p 0 l q Hp Hs)) in H2. apply (proj2 (step_iff p 0 l p1 Hp Hs)) in H1. congruence. }
  subst q. apply IH; auto. eapply sane_step; eauto.
Qed.

(** ** In front of the plan *)

Lemma sane_new : sane pnew.
Proof. intros ?. discriminate. Qed.
Lemma opening_iff a v e : opening a v e <-> exists p1, pre pnew a p1 /\ planning p1 = false /\ pversion p1 = v /\ xp_exts (pext p1) = e /\ ptree p1 = builder_empty.
Proof.
  split.
  - intros (blanks & vls & els & es & -> & W & V & X & C & T). assert (Ad : adds exts_empty es e) by (apply adds_iff; auto).
    destruct (pre_complete blanks vls els [] v es e W V X Ad (or_introl eq_refl)) as (p1 & H1 & N1 & N2 & N3 & N4). rewrite app_nil_r in H1.
    exists p1. destruct N4 as [[_ N4]|(h & N4 & _)]; [auto|discriminate].
  - intros (p1 & H & Hp & <- & <- & _). apply pre_sound in H as (blanks & vls & els & pls & v & es & e & -> & W & V & X & Ad & N1 & N2 & N3 & N4).
    destruct N4 as [[-> _]|(h & _ & _ & N4)]; [|congruence]. rewrite app_nil_r, N1, N2. apply adds_iff in Ad as [C T].
    exists blanks, vls, els, es. auto 10.
Qed.
Lemma opening_plan a h v e : opening a v e -> at_level 0 h (L "=== Plan") ->
  exists p1, pre pnew (a ++ [h]) p1 /\ planning p1 = true /\ pversion p1 = v /\ xp_exts (pext p1) = e /\ ptree p1 = builder_empty.
Proof.
  intros (blanks & vls & els & es & -> & W & V & X & C & T) Hh. assert (Ad : adds exts_empty es e) by (apply adds_iff; auto).
  destruct (pre_complete blanks vls els [h] v es e W V X Ad) as (p1 & H1 & N1 & N2 & N3 & N4); [eauto|]. exists p1.
  rewrite <- !app_assoc. destruct N4 as [[N4 _]|(h' & _ & _ & N4)]; [discriminate|auto].
Qed.
Lemma plan_opening a p1 : pre pnew a p1 -> planning p1 = true -> exists b h, a = b ++ [h] /\ at_level 0 h (L "=== Plan") /\
  opening b (pversion p1) (xp_exts (pext p1)) /\ ptree p1 = builder_empty.
Proof.
  intros H Hp. apply pre_sound in H as (blanks & vls & els & pls & v & es & e & -> & W & V & X & Ad & N1 & N2 & N3 & N4).
  destruct N4 as [[_ N4]|(h & -> & Hh & _)]; [congruence|]. exists (blanks ++ vls ++ els), h. rewrite <- !app_assoc, N1, N2. apply adds_iff in Ad as [C T].
  repeat split; auto. exists blanks, vls, els, es. auto 10.
Qed.
Lemma white_pre p a p1 : pre p a p1 -> sane p -> Forall white a -> p1 = p.
Proof.
  induction 1 as [p|p l p1 ls p2 Hp H1 _ IH]; intros Hs W; [reflexivity|]. inversion W as [|? ? Wl Wls]; subst.
  assert (p1 = p). { apply (proj2 (step_iff p 0 l p1 Hp Hs)) in H1. unfold step in H1. apply blank_iff in Wl. rewrite Wl in H1. congruence. }
  subst p1. auto.
Qed.
Lemma pre_rank p a p1 : pre p a p1 -> section_rank (state p) <= section_rank (state p1).
Proof.
  induction 1 as [p|p l p1 ls p2 Hp H1 _ IH]; [lia|]. destruct H1 as [H1|H1].
  - apply body_state in H1. rewrite H1 in IH. exact IH.
  - destruct H1; cbn [ps_state] in *; cbn in *; lia.
Qed.
Lemma initial_white a p1 : pre pnew a p1 -> state p1 = SInitial <-> Forall white a.
Proof.
  intros H. split.
  - intros Hs. apply pre_split in H as (b & r & p0 & -> & Hb & Hr). apply bodies_initial in Hb as [W ->].
    destruct Hr as [[-> _]|(h & tl & p2 & -> & _ & Hh & Hp)]; [now rewrite app_nil_r|]. apply pre_rank in Hp. rewrite Hs in Hp.
    inversion Hh; subst; cbn in Hp; lia.
  - intros W. assert (Hs : sane pnew) by (intros ?; discriminate). now rewrite (white_pre _ _ _ H Hs W).
Qed.
Lemma header_level l : (exists r, at_level 0 l (L "===" ++ r)) <-> fst (indented l) = 0 /\ starts_with (L "===") (snd (indented l)) = true.
Proof.
  split.
  - intros (r & H). apply indented_iff in H. rewrite H. cbn [fst snd]. split; [reflexivity|]. apply starts_with_iff. now exists r.
  - intros [H1 H2]. apply starts_with_iff in H2 as (r & H2). exists r. rewrite <- H1, <- H2. apply at_level_indented.
Qed.
Lemma step_line a p1 l d n : pre pnew a p1 -> planning p1 = false -> n = (1 + N.of_nat (length a))%N -> lstep p1 n l = Err d -> counted a l (error_line d).
Proof.
  intros Ha Hp -> H. unfold counted. rewrite <- (initial_white a p1 Ha), header_level.
  unfold step in H. destruct (blank l) eqn:B; [discriminate|].
  destruct (match fst (indented l) with 0 => starts_with (L "===") (snd (indented l)) | S _ => false end) eqn:E.
  - right. split.
    + intros [_ G]. apply G. destruct (fst (indented l)); [auto|discriminate].
    + destruct (parse_line_err _ _ _ _ _ _ _ _ H) as [H1|(_ & H1 & _)]; [lia|]. exfalso.
      destruct (fst (indented l)) as [|k] eqn:Ek; [|discriminate]. apply starts_with_iff in E as (r & E).
      pose proof (at_level_indented l) as Hl. rewrite Ek, E in Hl. destruct Hl as (w & Hl & _). cbn [repeat Nat.mul app] in Hl.
      assert (starts_with (L "===") l = true); [|congruence]. apply starts_with_iff. exists (r ++ w). rewrite Hl. now rewrite <- app_assoc.
  - assert (Nh : ~ (fst (indented l) = 0 /\ starts_with (L "===") (snd (indented l)) = true)).
    { intros [G1 G2]. rewrite G1 in E. congruence. }
    destruct (parse_line_err _ _ _ _ _ _ _ _ H) as [H1|(Hs & _ & He)].
    + destruct (state p1) eqn:Es; try (right; split; [intros [? _]; discriminate|lia]).
      left. split; [auto|]. unfold parse_line in H. destruct (indented l) as [i t] eqn:Ei. cbn [fst snd] in *. rewrite E, Es in H.
      apply indented_iff in Ei. exists i, t. split; [exact Ei|]. destruct i; [destruct (trim t); [discriminate|]|]; now injection H as <-.
    + left. rewrite Hs. split; [auto|]. subst d. exists (fst (indented l)), (snd (indented l)). split; [apply at_level_indented|reflexivity].
Qed.

(** ** Groups of the plan *)

Lemma grouped_concat ls ks : grouped ls ks -> ls = concat ks.
Proof. induction 1; cbn; [reflexivity|]. now rewrite IHgrouped. Qed.
Lemma grouped_front ks : forall ks', grouped (concat (ks ++ ks')) (ks ++ ks') -> grouped (concat ks) ks /\ grouped (concat ks') ks'.
Proof.
  induction ks as [|k ks IH]; intros ks' H; [split; [constructor|exact H]|]. cbn [app] in H.
  remember (concat (k :: ks ++ ks')) as ls eqn:El. remember (k :: ks ++ ks') as kk eqn:Ek.
  destruct H as [|l cs rest kk' H1 H2 H3]; [discriminate|]. injection Ek as <- ->. pose proof (grouped_concat _ _ H3) as Er. subst rest.
  destruct (IH ks' H3) as [I1 I2]. split; [|exact I2]. cbn [concat app]. constructor; auto. intros c r Hc.
  apply (H2 c (r ++ concat ks')). rewrite concat_app, Hc. reflexivity.
Qed.
Lemma lrun_groups ks : forall p n ks' p', planning p = true -> grouped (concat (ks ++ ks')) (ks ++ ks') -> lrun p n (concat (ks ++ ks')) p' ->
  exists p1, planning p1 = true /\ lrun p n (concat ks) p1 /\ lrun p1 (n + N.of_nat (length (concat ks))) (concat ks') p'.
Proof.
  induction ks as [|k ks IH]; intros p n ks' p' Hp Hg H.
  - exists p. rewrite N.add_0_r. repeat split; auto. constructor.
  - cbn [app] in Hg. pose proof (grouped_front [k] (ks ++ ks') Hg) as [_ Hg'].
    assert (Q : exists l cs, k = l :: cs /\ lines_chunk true l (cs ++ concat (ks ++ ks')) = (cs, concat (ks ++ ks')) /\ lines_chunk true l (cs ++ concat ks) = (cs, concat ks)).
    { destruct (grouped_front (k :: ks) ks' Hg) as [Hf _]. inversion Hg as [|l cs rest kk H1 H2 H3]; subst. exists l, cs. split; [reflexivity|]. split.
      - pose proof (grouped_concat _ _ H3); subst rest. now apply chunk_grouped.
      - inversion Hf as [|l' cs' rest' kk' G1 G2 G3 G4 G5]; subst. pose proof (grouped_concat _ _ G3); subst rest'. now apply chunk_grouped. }
    destruct Q as (l & cs & -> & Q1 & Q2). cbn [app concat] in H. inversion H as [|? ? ? ? p1 ? H1 H2]; subst. rewrite Hp, Q1 in H1, H2. cbn [fst snd] in *.
    pose proof (step_plan _ _ _ _ p n (l :: cs) p1 Hp H1) as [Hp1 _].
    destruct (IH p1 _ ks' p' Hp1 Hg' H2) as (p2 & P1 & P2 & P3). exists p2. split; [exact P1|]. split.
    + cbn [concat app]. eapply lr_step; rewrite Hp, Q2; cbn [fst snd]; eauto.
    + replace (n + N.of_nat (length (concat ((l :: cs) :: ks))))%N with (n + N.of_nat (S (length cs)) + N.of_nat (length (concat ks)))%N; [exact P3|].
      cbn [concat length app]. rewrite app_length. lia.
Qed.
Lemma grouped_exists ls : exists ks, grouped ls ks.
Proof.
  induction ls as [ls IH] using (well_founded_induction (Wf_nat.well_founded_ltof _ (@length (list N)))). unfold Wf_nat.ltof in IH.
  destruct ls as [|l ls]; [exists []; constructor|]. destruct (IH (snd (lines_chunk true l ls))) as (ks & H).
  - pose proof (f_equal (@length _) (chunk_app true l ls)) as E. cbn [length app] in *. rewrite app_length in E. lia.
  - exists ((l :: fst (lines_chunk true l ls)) :: ks). apply grouped_chunk. exact H.
Qed.
Lemma group_chunk k ks : grouped (concat (k :: ks)) (k :: ks) -> exists l cs, k = l :: cs /\ lines_chunk true l (cs ++ concat ks) = (cs, concat ks) /\ grouped (concat ks) ks.
Proof.
  intros H. inversion H as [|l cs rest kk H1 H2 H3]; subst. pose proof (grouped_concat _ _ H3); subst rest. exists l, cs. split; [reflexivity|].
  split; [now apply chunk_grouped|exact H3].
Qed.
Lemma group_inv p n k ks p' : planning p = true -> grouped (concat (k :: ks)) (k :: ks) -> lrun p n (concat (k :: ks)) p' ->
  exists p1, lstep p n (unl k) = Ok p1 /\ planning p1 = true /\ lrun p1 (n + N.of_nat (length k)) (concat ks) p'.
Proof.
  intros Hp Hg H. apply group_chunk in Hg as (l & cs & -> & Q & _). cbn [concat app] in H. inversion H as [|? ? ? ? p1 ? H1 H2]; subst.
  rewrite Hp, Q in H1, H2. cbn [fst snd] in *. exists p1. split; [exact H1|]. split; [|exact H2]. apply (step_plan _ _ _ _ p n (l :: cs) p1 Hp H1).
Qed.
Lemma group_run p n k ks p1 p' : planning p = true -> grouped (concat (k :: ks)) (k :: ks) -> lstep p n (unl k) = Ok p1 ->
  lrun p1 (n + N.of_nat (length k)) (concat ks) p' -> lrun p n (concat (k :: ks)) p'.
Proof.
  intros Hp Hg H1 H2. apply group_chunk in Hg as (l & cs & -> & Q & _). cbn [concat app]. eapply lr_step; rewrite Hp, Q; cbn [fst snd]; eauto.
Qed.
Lemma group_fail p n k ks d : planning p = true -> grouped (concat (k :: ks)) (k :: ks) -> lstep p n (unl k) = Err d -> lfail p n (concat (k :: ks)) d.
Proof. intros Hp Hg H1. apply group_chunk in Hg as (l & cs & -> & Q & _). cbn [concat app]. apply lf_here. rewrite Hp, Q. exact H1. Qed.
Lemma group_fail_later p n k ks p1 d : planning p = true -> grouped (concat (k :: ks)) (k :: ks) -> lstep p n (unl k) = Ok p1 ->
  lfail p1 (n + N.of_nat (length k)) (concat ks) d -> lfail p n (concat (k :: ks)) d.
Proof.
  intros Hp Hg H1 H2. apply group_chunk in Hg as (l & cs & -> & Q & _). cbn [concat app]. eapply lf_later; rewrite Hp, Q; cbn [fst snd]; eauto.
Qed.
Lemma grouped_whole ls ks : grouped ls ks -> grouped (concat ks) ks.
Proof. intros H. pose proof (grouped_concat _ _ H) as E. now rewrite <- E. Qed.
Lemma plan_fail_sound ls : forall p n d, planning p = true -> lfail p n ls d -> exists ks k ks' p1, grouped ls (ks ++ k :: ks') /\
  planning p1 = true /\ lrun p n (concat ks) p1 /\ lstep p1 (n + N.of_nat (length (concat ks))) (unl k) = Err d.
Proof.
  induction ls as [ls IH] using (well_founded_induction (Wf_nat.well_founded_ltof _ (@length (list N)))). unfold Wf_nat.ltof in IH.
  intros p n d Hp H. destruct H as [p n l ls d H1|p n l ls p1 d H1 H2]; rewrite Hp in *.
  - destruct (grouped_exists (snd (lines_chunk true l ls))) as (ks' & Hk). exists [], (l :: fst (lines_chunk true l ls)), ks', p.
    split; [now apply grouped_chunk|]. split; [exact Hp|]. split; [constructor|]. cbn [concat length]. now rewrite N.add_0_r.
  - pose proof (step_plan _ _ _ _ p n (l :: fst (lines_chunk true l ls)) p1 Hp H1) as [Hp1 _].
    destruct (IH (snd (lines_chunk true l ls))) with (p := p1) (n := (n + N.of_nat (S (length (fst (lines_chunk true l ls)))))%N) (d := d)
      as (ks & k & ks' & p2 & G & P2 & R & St); auto.
    { pose proof (f_equal (@length _) (chunk_app true l ls)) as E. cbn [length app] in *. rewrite app_length in E. lia. }
    exists ((l :: fst (lines_chunk true l ls)) :: ks), k, ks', p2. pose proof (grouped_chunk l ls _ G) as G'. split; [exact G'|]. split; [exact P2|].
    split.
    + apply (group_run p n _ ks p1 p2 Hp); auto. apply (grouped_front _ (k :: ks')). apply (grouped_whole (l :: ls)). exact G'.
    + cbn [concat]. rewrite app_length. cbn [length]. rewrite <- St. f_equal. lia.
Qed.
Lemma lrun_fun p n ls p1 : lrun p n ls p1 -> forall p2, lrun p n ls p2 -> p1 = p2.
Proof.
  induction 1 as [p n|p n l ls p1 p' H1 H2 IH]; intros p2 H; inversion H as [|? ? ? ? q ? G1 G2]; subst; [reflexivity|].
  rewrite H1 in G1. injection G1 as <-. now apply IH.
Qed.
Lemma plan_fail_complete ks : forall p n k ks' p1 d, planning p = true -> grouped (concat (ks ++ k :: ks')) (ks ++ k :: ks') ->
  lrun p n (concat ks) p1 -> lstep p1 (n + N.of_nat (length (concat ks))) (unl k) = Err d -> lfail p n (concat (ks ++ k :: ks')) d.
Proof.
  induction ks as [|k0 ks IH]; intros p n k ks' p1 d Hp G R St.
  - inversion R; subst. cbn [app concat length] in *. rewrite N.add_0_r in St. now apply group_fail.
  - pose proof (grouped_front (k0 :: ks) (k :: ks') G) as [G1 _]. cbn [app] in *. pose proof (grouped_front [k0] (ks ++ k :: ks') G) as [_ G2].
    destruct (group_inv p n k0 ks p1 Hp G1 R) as (q & S1 & Q & R1).
    apply (group_fail_later p n k0 _ q d Hp G S1). apply (IH q _ k ks' p1 d Q G2 R1). rewrite <- St. f_equal. cbn [concat]. rewrite app_length. lia.
Qed.
Lemma plan_line p n l d : planning p = true -> lstep p n l = Err d -> error_line d = n.
Proof.
  intros Hp H. unfold step in H. destruct (blank l); [discriminate|]. destruct (parse_line_err _ _ _ _ _ _ _ _ H) as [E|(E & _)]; [exact E|].
  unfold in_plan in Hp. rewrite E in Hp. discriminate.
Qed.

(** ** The trees of a plan *)

Lemma reads_numbered k x : reads k x <-> group_means (snd k) x /\ number_of (snd x) = fst k.
Proof.
  split.
  - intros H. split; [now apply reads_means|]. destruct H as (_ & y & _ & ->). now destruct y.
  - intros [(t & tr & r & y & Hl & Hy & m & Hx) Hn]. unfold reads_as. apply indented_iff in Hl. rewrite Hl. cbn [fst snd]. split; [reflexivity|].
    exists y. split.
    + destruct Hy as [(E & H1 & H2)|(E & H1 & H2)].
      * rewrite E. cbn [Nat.eqb]. apply read_root_iff. eauto.
      * destruct (fst x); [congruence|]. cbn [Nat.eqb]. apply read_node_iff. eauto.
    + rewrite Hx in Hn |- *. destruct y; cbn [number_of] in Hn; now subst m.
Qed.
Lemma only_numbered nks gs : only (fun k : N * list (list N) => written_group (snd k)) nks gs <-> gs = filter written nks.
Proof. apply only_filter. intros k. unfold written, written_group. now rewrite <- blank_false, negb_true_iff. Qed.
Lemma Forall2_iff {X Y} (P Q : X -> Y -> Prop) a b : (forall x y, P x y <-> Q x y) -> Forall2 P a b <-> Forall2 Q a b.
Proof. intros H. split; induction 1; constructor; auto; now apply H. Qed.
Lemma numbered_run p n h ls trees : planning p = true -> ptree p = builder_empty -> at_level 0 h (L "=== Plan") ->
  (exists p', lrun p (n + 1) ls p' /\ finish (ptree p') = trees /\ pext p' = pext p) <-> numbered_plan n (h :: ls) trees.
Proof.
  intros Hp Ht Hh. split.
  - intros (p' & H & <- & _). destruct (plan_run_sound _ _ _ _ Hp H) as (ks & nodes & K1 & K2 & K3 & _). rewrite Ht in K3. apply add_lines_flatten in K3.
    change (finish builder_empty) with (@nil (rnode rline acst)) in K3. cbn in K3.
    apply np_some with (ks := ks) (gs := filter written (number_groups (n + 1) ks)); auto; [now apply only_numbered|]. rewrite K3.
    eapply Forall2_iff; [|exact K2]. intros k x. symmetry. apply reads_numbered.
  - intros H. inversion H as [|h' ls' ks gs trees' _ Hg Ho Hm]; subst. apply only_numbered in Ho. subst gs.
    destruct (add_lines_forest rline acst trees builder_empty) as (b & B1 & B2). cbn in B2.
    exists (mkp SPlan (pversion p) (pext p) b). split; [|split; [exact B2|reflexivity]]. apply plan_run_complete with (ks := ks) (nodes := flatten_all trees); auto.
    + eapply Forall2_iff; [|exact Hm]. intros k x. apply reads_numbered.
    + now rewrite Ht.
Qed.
Lemma plan_run p n h ls : planning p = true -> ptree p = builder_empty -> at_level 0 h (L "=== Plan") ->
  (exists p', lrun p n ls p') <-> exists trees, plan_section (h :: ls) trees.
Proof.
  intros Hp Ht Hh. split.
  - intros (p' & H). destruct (plan_run_sound _ _ _ _ Hp H) as (ks & nodes & K1 & K2 & K3 & _). exists (finish (ptree p')). rewrite Ht in K3. apply add_lines_flatten in K3.
    change (finish builder_empty) with (@nil (rnode rline acst)) in K3. cbn in K3.
    apply pl_some with (ks := ks) (gs := filter (fun k => negb (blank (group_text k))) ks); auto; [now apply only_groups|]. rewrite K3, <- (numbered_snd n ks).
    clear - K2. induction K2 as [|k0 x0 ks0 xs0 H0 _ IH0]; [constructor|]. cbn [map]. constructor; auto. now apply reads_means.
  - intros (trees & H). inversion H as [|h' ls' ks gs trees' _ Hg Ho Hm]; subst. apply only_groups in Ho. subst gs.
    rewrite <- (numbered_snd n ks) in Hm. apply numbered_means in Hm as (nodes & M1 & M2).
    destruct (add_lines_forest rline acst trees builder_empty) as (b & B1 & B2). cbn in B2.
    assert (Z : rmap unb (add_lines builder_empty nodes) = rmap unb (Ok b : res tree_error _)).
    { rewrite <- B1, <- !add_lines_unnumber. now rewrite M2. }
    destruct (add_lines builder_empty nodes) as [b'| |] eqn:B3; cbn [rmap rbind] in Z; try discriminate.
    exists (mkp SPlan (pversion p) (pext p) b'). apply plan_run_complete with (ks := ks) (nodes := nodes); auto. now rewrite Ht.
Qed.

(** ** What is said about a line *)

Lemma header_decides l : (header_line l /\ fst (indented l) = 0 /\ starts_with (L "===") (snd (indented l)) = true) \/
  (~ header_line l /\ match fst (indented l) with 0 => starts_with (L "===") (snd (indented l)) | S _ => false end = false).
Proof.
  unfold header_line. rewrite header_level. destruct (fst (indented l)) as [|i]; [|right; split; [intros [? _]; discriminate|reflexivity]].
  destruct (starts_with (L "===") (snd (indented l))); [left|right]; intuition discriminate.
Qed.
Lemma known_level l : known_header l <-> fst (indented l) = 0 /\ (snd (indented l) = L "=== Extensions" \/ snd (indented l) = L "=== Plan" \/
  snd (indented l) = L "=== Version" \/ exists r, snd (indented l) = L "=== Version " ++ r).
Proof.
  unfold known_header. assert (Q : forall t, at_level 0 l t <-> fst (indented l) = 0 /\ snd (indented l) = t).
  { intros t. rewrite <- indented_iff. destruct (indented l) as [a b]. cbn [fst snd]. split; [intros [= -> ->]; auto|intros [-> ->]; reflexivity]. }
  rewrite !Q. assert (R : (exists r, at_level 0 l (L "=== Version " ++ r)) <-> fst (indented l) = 0 /\ exists r, snd (indented l) = L "=== Version " ++ r).
  { split; [intros (r & H); apply Q in H as [? ?]; eauto|intros [H (r & H')]; exists r; apply Q; auto]. }
  rewrite R. tauto.
Qed.
Lemma version_complaint n r d : parse_version_header n r = Err d -> complaint_of d = Misplaced.
Proof.
  assert (N : forall ps d, next_number n ps = Err d -> complaint_of d = Misplaced).
  { intros ps d0 G. unfold next_number in G. destruct ps as [|[|c r0] r1]; try (now injection G as <-). destruct (parse_u32 _); [discriminate|]. now injection G as <-. }
  intros H. unfold parse_version_header in H. apply rbind_err in H as [H|(x & _ & H)]; [eauto|]. apply rbind_err in H as [H|(y & _ & H)]; [eauto|].
  apply rbind_err in H as [H|(z & _ & H)]; [eauto|]. destruct (snd z); [discriminate|]. now injection H as <-.
Qed.
Lemma header_step p n l d : header_line l -> lstep p n l = Err d -> header_complaint l (complaint_of d).
Proof.
  intros Hl. destruct (header_decides l) as [(_ & H1 & H2)|[H _]]; [|contradiction]. unfold step. destruct (blank l); [discriminate|].
  unfold header_complaint. rewrite known_level. unfold parse_line. destruct (indented l) as [i s]. cbn [fst snd] in *. subst i. rewrite H2.
  intros H. apply rbind_err in H as [H|([st v] & H & G)].
  - unfold parse_section_header in H. destruct (streqb s hdr_extensions) eqn:E1; [discriminate|]. destruct (streqb s hdr_plan) eqn:E2; [discriminate|].
    apply streqb_neq in E1, E2. destruct (strip_prefix hdr_version s) as [r|] eqn:E3.
    + apply strip_prefix_spec in E3. subst s. destruct r as [|c r].
      * left. split; [split; [reflexivity|]; right; right; left; reflexivity|]. apply rbind_err in H as [H|(? & _ & H)]; [|discriminate]. now apply version_complaint in H.
      * destruct (c =? c_sp)%N eqn:Ec.
        -- apply N.eqb_eq in Ec. subst c. left. split; [split; [reflexivity|]; right; right; right; exists r; reflexivity|].
           apply rbind_err in H as [H|(? & _ & H)]; [|discriminate]. now apply version_complaint in H.
        -- right. split; [|now injection H as <-]. intros [_ [G|[G|[G|(r' & G)]]]]; try contradiction; [discriminate|].
           cbn in G. injection G as -> _. discriminate.
    + right. split; [|now injection H as <-].
      assert (V : forall r, s <> hdr_version ++ r) by (intros r E; apply strip_prefix_spec in E; congruence).
      intros [_ [G|[G|[G|(r' & G)]]]]; try contradiction; [now apply (V [])|now apply (V (c_sp :: r'))].
  - destruct (_ <=? _); [|discriminate]. injection G as <-. left. split; [|reflexivity]. split; [reflexivity|].
    unfold parse_section_header in H. destruct (streqb s hdr_extensions) eqn:E1; [apply streqb_eq in E1; auto|].
    destruct (streqb s hdr_plan) eqn:E2; [apply streqb_eq in E2; auto|]. destruct (strip_prefix hdr_version s) as [r|] eqn:E3; [|discriminate].
    apply strip_prefix_spec in E3. subst s. destruct r as [|c r]; [right; right; left; reflexivity|]. destruct (c =? c_sp)%N eqn:Ec; [|discriminate].
    apply N.eqb_eq in Ec. subst c. right. right. right. now exists r.
Qed.
Lemma pre_declaring p a p1 : pre p a p1 -> sane p -> Exists (fun h => at_level 0 h (L "=== Extensions")) a -> 2 <= section_rank (state p1).
Proof.
  induction 1 as [p|p l p1 ls p2 Hp H1 Hr IH]; intros Hs E; [inversion E|]. inversion E as [? ? Hl|? ? Hl]; subst.
  - apply pre_rank in Hr. enough (state p1 = SExtensions) as Q by (rewrite Q in Hr; exact Hr).
    apply (proj2 (step_iff p 0 l p1 Hp Hs)) in H1. apply indented_iff in Hl. unfold step in H1. destruct (blank l) eqn:B.
    + apply blank_iff, white_level in B. apply indented_iff in B. rewrite Hl in B. discriminate.
    + unfold parse_line in H1. rewrite Hl in H1. change (starts_with (L "===") (L "=== Extensions")) with true in H1. cbv iota in H1.
      change (parse_section_header rline acst p 0 (L "=== Extensions")) with (Ok (SExtensions, pversion p) : res perror _) in H1.
      cbn [rbind fst snd] in H1. destruct (_ <=? _); [discriminate|]. now injection H1 as <-.
  - apply IH; auto. eapply sane_step; eauto.
Qed.
Lemma opening_step a p1 l d n : pre pnew a p1 -> planning p1 = false -> lstep p1 n l = Err d -> opening_complaint a l (complaint_of d).
Proof.
  intros Ha Hp H. unfold opening_complaint. destruct (header_decides l) as [(Hl & _)|[Hl E]].
  { left. split; [exact Hl|]. eapply header_step; eauto. }
  right. unfold step in H. destruct (blank l); [discriminate|]. unfold parse_line in H. destruct (indented l) as [i s]. cbn [fst snd] in E. rewrite E in H.
  pose proof (initial_white a p1 Ha) as IW. pose proof (pre_declaring _ _ _ Ha sane_new) as PD. unfold in_plan in Hp. destruct (state p1) eqn:Es; try discriminate.
  - left. split; [exact Hl|]. split; [now apply IW|]. destruct i; [destruct (trim s); [discriminate|]|]; injection H as <-; reflexivity.
  - right. right. split; [exact Hl|]. split; [intros W; apply IW in W; discriminate|]. split; [intros G; apply PD in G; cbn in G; lia|].
    destruct i as [|[|i]]; [destruct (trim s); [discriminate|]| |].
    + now injection H as <-.
    + apply rbind_err in H as [H|(? & _ & H)]; [|discriminate]. unfold parse_version_detail in H.
      repeat match type of H with context [match ?x with _ => _ end] => destruct x end; try discriminate; injection H as <-; reflexivity.
    + now injection H as <-.
  - right. left. split; [exact Hl|]. split; [intros W; apply IW in W; discriminate|]. split.
    + destruct (proj1 (pre_ext a p1) (conj Ha Es)) as (blanks & vls & h & ls & ws & v & x & -> & _ & _ & Hh & _).
      apply Exists_exists. exists h. split; [|exact Hh]. rewrite !in_app_iff. cbn. auto.
    + apply rbind_err in H as [H|(? & _ & H)]; [|discriminate]. unfold lift_ext in H. destruct (ext_parse_line _ _); try discriminate. now injection H as <-.
Qed.
Lemma at_depth_err d (f : rnode rline acst -> res tree_error _) e : forall n er, at_depth d f e n = Err er -> er = e \/ exists y, f y = Err er.
Proof.
  induction d as [|d IH]; intros [r l ads cs] er H; cbn [at_depth] in H; [eauto|]. destruct (rev cs); [injection H as <-; auto|].
  apply rbind_err in H as [H|(? & _ & H)]; [eauto|discriminate].
Qed.
Lemma add_line_err b i (x : lnode rline acst) er : add_line b i x = Err er -> match x with LRel _ _ => er = TNoParent | LAdd _ _ => er <> TNoParent end.
Proof.
  assert (Q : forall d (f : rnode rline acst -> res tree_error _) e, at_current d f e b = Err er -> er = e \/ exists y, f y = Err er).
  { intros d f e H. unfold at_current in H. destruct (b_current b); [|injection H as <-; auto].
    apply rbind_err in H as [H|(? & _ & H)]; [|discriminate]. eapply at_depth_err; eauto. }
  intros H. destruct x, i as [|i]; cbn [add_line] in H; try discriminate.
  - apply Q in H as [H|([] & H)]; [exact H|discriminate].
  - injection H as <-. discriminate.
  - apply Q in H as [H|([? ? ? cs] & H)]; [subst; discriminate|]. cbn [push_addendum] in H. destruct cs; [discriminate|]. injection H as <-. discriminate.
Qed.
Lemma plan_step p n k d : planning p = true -> lstep p n (unl k) = Err d -> plan_complaint k (complaint_of d).
Proof.
  intros Hp H. unfold plan_complaint. rewrite <- group_text_unl in H. destruct (header_decides (group_text k)) as [(Hl & _)|[Hl E]].
  { left. split; [exact Hl|]. eapply header_step; eauto. }
  right. unfold step in H. destruct (blank (group_text k)); [discriminate|]. unfold parse_line in H.
  destruct (indented (group_text k)) as [i s] eqn:Ei. cbn [fst snd] in E. rewrite E in H. unfold in_plan in Hp. destruct (state p); try discriminate.
  assert (Q : forall d a m, group_means k (d, LAdd a m) -> (match i with 0 => read_root s | S _ => read_node s end) = Ok (inr a)).
  { intros d0 a m G. apply (means_reads m) in G as ([d1 y1] & (G1 & y & G2 & G3) & G4). cbn [fst snd] in *. rewrite Ei in G1, G2. cbn [fst snd] in *. subst d1.
    assert (y = inr a). { destruct y; cbn [fst snd] in *; subst y1; unfold unx in G4; cbn in G4; congruence. }
    subst y. destruct i; exact G2. }
  apply rbind_err in H as [H|(y & Hy & H)].
  - right. split; [exact Hl|]. split.
    + intros (d0 & a & m & G). apply Q in G. rewrite G in H. discriminate.
    + unfold lift_plan in H. destruct (match i with 0 => _ | _ => _ end); try discriminate. now injection H as <-.
  - apply rbind_err in H as [H|(? & _ & H)]; [|discriminate].
    assert (Hr : (match i with 0 => read_root s | S _ => read_node s end) = Ok y).
    { unfold lift_plan in Hy. destruct (match i with 0 => _ | _ => _ end); congruence. }
    destruct y as [r|a]; cbn [to_lnode] in H.
    + right. split; [exact Hl|]. split; [intros (d0 & a & m & G); apply Q in G; congruence|].
      destruct (add_line (ptree p) i (LRel r n)) as [|er|] eqn:Ea; cbn [lift_tree] in H; try discriminate.
      apply add_line_err in Ea. subst er. now injection H as <-.
    + left. split; [exact Hl|]. split.
      * exists i, a, n. apply (reads_means (n, k)). unfold reads_as. cbn [fst snd]. rewrite Ei. cbn [fst snd]. split; [reflexivity|]. exists (inr a). split; [|reflexivity].
        destruct i; exact Hr.
      * destruct (add_line (ptree p) i (LAdd a n)) as [|er|] eqn:Ea; cbn [lift_tree] in H; try discriminate.
        apply add_line_err in Ea. destruct er; try contradiction; now injection H as <-.
Qed.
Lemma header_complaint_fun l c c' : header_complaint l c -> header_complaint l c' -> c = c'.
Proof. unfold header_complaint. intros [[? ->]|[? ->]] [[? ->]|[? ->]]; tauto || reflexivity. Qed.
Lemma opening_complaint_fun a l c c' : opening_complaint a l c -> opening_complaint a l c' -> c = c'.
Proof.
  unfold opening_complaint. cbv zeta. intros [[? H]|[(? & ? & ->)|[(? & ? & ? & ->)|(? & ? & ? & ->)]]] [[? H']|[(? & ? & ->)|[(? & ? & ? & ->)|(? & ? & ? & ->)]]]; try tauto.
  eapply header_complaint_fun; eauto.
Qed.
Lemma plan_complaint_fun k c c' : plan_complaint k c -> plan_complaint k c' -> c = c'.
Proof.
  unfold plan_complaint. cbv zeta. intros [[? H]|[(? & ? & ->)|(? & ? & ->)]] [[? H']|[(? & ? & ->)|(? & ? & ->)]]; try tauto.
  eapply header_complaint_fun; eauto.
Qed.

(** ** Whole texts *)

Lemma pre_sane p a p1 : pre p a p1 -> sane p -> sane p1.
Proof. induction 1 as [p|p l p1 ls p2 Hp H1 _ IH]; intros Hs; auto. apply IH. eapply sane_step; eauto. Qed.
Lemma pre_opening a p1 : pre pnew a p1 -> planning p1 = false -> opening a (pversion p1) (xp_exts (pext p1)) /\ ptree p1 = builder_empty.
Proof.
  intros H Hp. assert (T : ptree p1 = builder_empty) by now apply pre_sound in H as (? & ? & ? & ? & ? & ? & ? & _ & _ & _ & _ & _ & _ & _ & N3 & _).
  split; [|exact T]. apply opening_iff. exists p1. auto.
Qed.
Lemma pre_one p l p1 n : pre p [l] p1 -> sane p -> planning p = false /\ lstep p n l = Ok p1.
Proof.
  intros H Hs. inversion H as [|? ? q ? ? Hp H1 H2]; subst. inversion H2; subst. split; [exact Hp|]. now apply step_iff.
Qed.
Lemma pre_fun p a p1 p2 : sane p -> pre p a p1 -> planning p1 = false -> pre p a p2 -> p1 = p2.
Proof.
  intros Hs H1 Hp H2. rewrite <- (app_nil_r a) in H2. apply (pre_next p a p1 H1 Hs [] p2) in H2. now inversion H2.
Qed.
(** A line that may follow is read. *)
Lemma next_read a p1 l n : pre pnew a p1 -> (exists v e, opening (a ++ [l]) v e) \/ at_level 0 l (L "=== Plan") /\ planning p1 = false ->
  exists p2, lstep p1 n l = Ok p2.
Proof.
  intros H N. assert (P : exists p2, pre pnew (a ++ [l]) p2).
  { destruct N as [(v & e & N)|[N Hp]].
    - apply opening_iff in N as (p2 & N & _). eauto.
    - destruct (pre_opening a p1 H Hp) as [O _]. destruct (opening_plan a l _ _ O N) as (p2 & Q & _). eauto. }
  destruct P as (p2 & P). apply (pre_next pnew a p1 H sane_new) in P. exists p2. apply (pre_one p1 l p2 n P). eapply pre_sane; eauto. apply sane_new.
Qed.
(** A line that is read may follow. *)
Lemma read_next a p1 l p2 n : pre pnew a p1 -> planning p1 = false -> lstep p1 n l = Ok p2 ->
  (exists v e, opening (a ++ [l]) v e) \/ at_level 0 l (L "=== Plan").
Proof.
  intros H Hp St. assert (Hs : sane p1) by (eapply pre_sane; eauto; apply sane_new). apply step_iff in St; auto.
  assert (P : pre pnew (a ++ [l]) p2). { eapply pre_app; eauto. econstructor; eauto. constructor. }
  destruct (planning p2) eqn:Hp2.
  - right. destruct (plan_opening _ _ P Hp2) as (b & h & E & Hh & _). apply app_inj_tail in E as [_ ->]. exact Hh.
  - left. destruct (pre_opening _ _ P Hp2) as [O _]. eauto.
Qed.

Section Texts.
  Context {F : Floats}.

  Lemma text_blame reg s d : parse reg s = Err d ->
    opening_blamed s (error_line d) (complaint_of d) \/ plan_blamed s (error_line d) (complaint_of d) \/ relation_blamed reg s (error_line d) (complaint_of d).
  Proof.
    unfold parse, parse_plan. intros H. apply rbind_err in H as [H|(p' & H & Hb)].
    - change (lrest pnew 1 s = Err d) in H. apply prest_lfail in H.
      destruct (lfail_split _ _ _ _ sane_new H) as [(a & l & rest & p1 & E & Ha & Hp & St)|(a & b & p1 & E & Ha & Hp & St)].
      + left. destruct (pre_opening a p1 Ha Hp) as [O _]. exists a, l, rest, (pversion p1), (xp_exts (pext p1)).
        split; [exact E|]. split; [exact O|]. split; [|split; [|split]].
        * intros Hl. destruct (next_read a p1 l (1 + N.of_nat (length a))%N Ha) as (p2 & N); [auto|congruence].
        * intros v e Ho. destruct (next_read a p1 l (1 + N.of_nat (length a))%N Ha) as (p2 & N); [eauto|congruence].
        * eapply step_line; eauto.
        * eapply opening_step; eauto.
      + right. left. destruct (plan_opening a p1 Ha Hp) as (b0 & h & -> & Hh & O & T).
        destruct (plan_fail_sound _ _ _ _ Hp St) as (ks & k & ks' & p2 & G & P2 & R & Se). pose proof (grouped_concat _ _ G) as Eb.
        destruct (proj1 (plan_run p1 _ h (concat ks) Hp T Hh) (ex_intro _ p2 R)) as (trees & Tr).
        pose proof (grouped_whole _ _ G) as G'. rewrite Eb in *. clear Eb b.
        assert (Ec : concat (ks ++ k :: ks') = concat ks ++ k ++ concat ks') by now rewrite concat_app.
        exists b0, h, ks, k, ks', (pversion p1), (xp_exts (pext p1)), trees. split; [rewrite E, <- Ec, <- app_assoc; reflexivity|].
        split; [exact O|]. split; [exact Hh|]. split; [rewrite <- Ec; exact G'|]. split; [exact Tr|]. split; [|split].
        * intros trees' Tr'. destruct (proj2 (plan_run p1 (1 + N.of_nat (length (b0 ++ [h]))) h (concat ks ++ k) Hp T Hh) (ex_intro _ trees' Tr')) as (q & Q).
          assert (Ek : concat ks ++ k = concat (ks ++ [k])) by (rewrite concat_app; cbn [concat]; now rewrite app_nil_r).
          assert (Gk : grouped (concat (ks ++ [k])) (ks ++ [k])).
          { apply (grouped_front (ks ++ [k]) ks'). rewrite <- app_assoc. exact G'. }
          rewrite Ek in Q. destruct (lrun_groups ks p1 _ [k] q Hp Gk Q) as (p3 & P3 & R3 & Q3).
          rewrite (lrun_fun _ _ _ _ R3 _ R) in Q3. apply (grouped_front ks [k]) in Gk as [_ Gk].
          apply (group_inv p2 _ k [] q P2 Gk) in Q3 as (q1 & Q3 & _). congruence.
        * rewrite (plan_line _ _ _ _ P2 Se), app_length. cbn [length]. lia.
        * eapply plan_step; eauto.
    - right. right. pose proof (read_tree_whole s p' H) as Wh. change (lrest pnew 1 s = Ok p') in H. apply prest_lrun in H.
      unfold build_plan in Hb. apply rbind_err in Hb as [Hb|(? & _ & Hb)]; [|discriminate].
      apply lrun_split in H as (a & b & p1 & E & Hpre & Hr); [|apply sane_new].
      destruct Hr as [(-> & -> & Hp)|(Hp & Hr)].
      + destruct (pre_opening a _ Hpre Hp) as [_ T]. rewrite T in Hb. discriminate.
      + destruct (plan_opening a p1 Hpre Hp) as (b0 & h & -> & Hh & O & T).
        destruct (plan_run_sound _ _ _ _ Hp Hr) as (_ & _ & _ & _ & _ & _ & K5).
        exists b0, (h :: b), (pversion p1), (xp_exts (pext p1)), (finish (ptree p')). split; [rewrite E, <- app_assoc; reflexivity|].
        split; [exact O|]. split.
        * apply (numbered_run p1 _ h b _ Hp T Hh). exists p'. split; [|auto].
          replace (1 + N.of_nat (length b0) + 1)%N with (1 + N.of_nat (length (b0 ++ [h])))%N; [exact Hr|]. rewrite app_length. cbn [length]. lia.
        * rewrite K5 in Hb. assert (We : wf_exts (xp_exts (pext p1))).
          { destruct O as (_ & _ & _ & es & _ & _ & _ & _ & C & Ta). eapply adds_wf; [apply wf_empty|]. apply adds_iff. eauto. }
          apply (trees_blame_iff reg _ We _ _ _ Wh). eauto.
  Qed.

  Lemma opening_stuck s n c : opening_blamed s n c ->
    (exists d, parse_text rline acst read_root read_node pnew s = Err d /\ error_line d = n /\ complaint_of d = c)
    \/ exists m, parse_text rline acst read_root read_node pnew s = Panic m.
  Proof.
    intros (a & l & rest & v & e & E & O & Hl & Ho & Hn & Hm). apply opening_iff in O as (p1 & Ha & Hp & _).
    destruct (lstep p1 (1 + N.of_nat (length a)) l) as [p2|d|m] eqn:St.
    - exfalso. destruct (read_next a p1 l p2 _ Ha Hp St) as [(v' & e' & N)|N]; [now apply Ho in N|contradiction].
    - left. exists d. split.
      + change (lrest pnew 1 s = Err d). apply prest_lfail. rewrite E. eapply lfail_pre; [exact Ha|apply sane_new|]. apply lf_here. rewrite Hp. cbn [lines_chunk fst]. now rewrite unl_one.
      + split; [|apply (opening_complaint_fun a l); auto; eapply opening_step; eauto]. apply (step_line a p1 l d _ Ha Hp eq_refl) in St. unfold counted in *.
        destruct Hn as [[Hn1 (d1 & t1 & Hn2 & ->)]|[Hn1 ->]], St as [[S1 (d2 & t2 & S2 & ->)]|[S1 ->]]; try contradiction; [|reflexivity].
        now destruct (at_level_fun _ _ _ _ _ S2 Hn2) as [-> _].
    - right. exists m. apply step_crash in St as (S1 & S2 & S3); [|exact Hp|eapply pre_sane; eauto; apply sane_new].
      change (lrest pnew 1 s = Panic m). apply prest_crash; [apply sane_new|]. eauto 10.
  Qed.
  Lemma opening_wrong reg s n c : opening_blamed s n c -> (forall m, parse reg s <> Panic m) -> exists d, parse reg s = Err d /\ error_line d = n /\ complaint_of d = c.
  Proof.
    intros H Hc. unfold parse, parse_plan in *. apply opening_stuck in H as [(d & H & G)|(m & H)]; rewrite H in *; [exists d; auto|]. now destruct (Hc m).
  Qed.
  Lemma plan_stuck s n c : plan_blamed s n c -> exists d, parse_text rline acst read_root read_node pnew s = Err d /\ error_line d = n /\ complaint_of d = c.
  Proof.
    intros (a & h & ks & k & ks' & v & e & trees & E & O & Hh & G & Tr & No & -> & Hm).
    destruct (opening_plan a h v e O Hh) as (p1 & Ha & Hp & _ & _ & T).
    assert (Ec : concat (ks ++ k :: ks') = concat ks ++ k ++ concat ks') by now rewrite concat_app. rewrite <- Ec in G.
    set (m := (1 + N.of_nat (length (a ++ [h])))%N). destruct (proj2 (plan_run p1 m h (concat ks) Hp T Hh) (ex_intro _ trees Tr)) as (p2 & R).
    assert (P2 : planning p2 = true).
    { destruct (grouped_front ks (k :: ks') G) as [G1 _]. rewrite <- (app_nil_r ks) in R, G1.
      destruct (lrun_groups ks p1 m [] p2 Hp G1 R) as (p3 & P3 & _ & R3). inversion R3; subst. exact P3. }
    assert (Gk : grouped (concat (ks ++ [k])) (ks ++ [k])) by (apply (grouped_front (ks ++ [k]) ks'); rewrite <- app_assoc; exact G).
    destruct (lstep p2 (m + N.of_nat (length (concat ks))) (unl k)) as [p3|d|q] eqn:St.
    - exfalso. assert (R' : lrun p1 m (concat ks ++ k) p3).
      { clear - R P2 St Gk Hp. assert (Ek : concat ks ++ k = concat (ks ++ [k])) by (rewrite concat_app; cbn [concat]; now rewrite app_nil_r).
        rewrite Ek. clear Ek. clearbody m. revert p1 m Hp R St Gk. induction ks as [|k0 ks IH]; intros p1 m Hp R St Gk.
        - inversion R; subst. cbn [app concat length] in *. rewrite N.add_0_r in St. apply (group_run p2 m k [] p3 p3 Hp Gk St). constructor.
        - cbn [app] in *. destruct (grouped_front (k0 :: ks) [k] Gk) as [G1 _]. destruct (grouped_front [k0] (ks ++ [k]) Gk) as [_ G2].
          destruct (group_inv p1 m k0 ks p2 Hp G1 R) as (q & S1 & Q & R1). apply (group_run p1 m k0 _ q p3 Hp Gk S1).
          apply (IH q _ Q R1); [|exact G2]. rewrite <- St. f_equal. cbn [concat]. rewrite app_length. lia. }
      destruct (proj1 (plan_run p1 m h (concat ks ++ k) Hp T Hh) (ex_intro _ p3 R')) as (trees' & Tr'). now apply No in Tr'.
    - exists d. split.
      + change (lrest pnew 1 s = Err d). apply prest_lfail. rewrite E, <- Ec. replace (a ++ h :: concat (ks ++ k :: ks')) with ((a ++ [h]) ++ concat (ks ++ k :: ks')) by now rewrite <- app_assoc.
          eapply lfail_pre; [exact Ha|apply sane_new|]. eapply plan_fail_complete; eauto.
      + split; [|apply (plan_complaint_fun k); auto; eapply plan_step; eauto]. rewrite (plan_line _ _ _ _ P2 St). unfold m. rewrite app_length. cbn [length]. lia.
    - now apply plan_step_quiet in St.
  Qed.
  Lemma plan_wrong reg s n c : plan_blamed s n c -> exists d, parse reg s = Err d /\ error_line d = n /\ complaint_of d = c.
  Proof. intros H. apply plan_stuck in H as (d & H & G). exists d. split; [|exact G]. unfold parse, parse_plan. now rewrite H. Qed.
  Lemma relation_read reg s n c : relation_blamed reg s n c -> exists p', parse_text rline acst read_root read_node pnew s = Ok p'.
  Proof.
    intros (a & pls & v & e & trees & E & O & Np & B). destruct Np as [|h ls ks gs trees Hh Hg Ho Hm]; [contradiction|].
    destruct (opening_plan a h v e O Hh) as (p1 & Ha & Hp & _ & Xe & T).
    destruct (proj2 (numbered_run p1 _ h ls trees Hp T Hh) (np_some _ h ls ks gs trees Hh Hg Ho Hm)) as (p' & R & Ft & Xp).
    exists p'. change (lrest pnew 1 s = Ok p'). apply prest_lrun. rewrite E. replace (a ++ h :: ls) with ((a ++ [h]) ++ ls) by now rewrite <- app_assoc.
    eapply lrun_pre; [exact Ha|apply sane_new|]. rewrite app_length. cbn [length].
    now replace (1 + N.of_nat (length a + 1))%N with (1 + N.of_nat (length a) + 1)%N by lia.
  Qed.
  Lemma relation_wrong reg s n c : relation_blamed reg s n c -> (forall m, parse reg s <> Panic m) ->
    exists d, parse reg s = Err d /\ error_line d = n /\ complaint_of d = c.
  Proof.
    intros (a & pls & v & e & trees & E & O & Np & B) Hc. destruct Np as [|h ls ks gs trees Hh Hg Ho Hm]; [contradiction|].
    destruct (opening_plan a h v e O Hh) as (p1 & Ha & Hp & _ & Xe & T).
    destruct (proj2 (numbered_run p1 _ h ls trees Hp T Hh) (np_some _ h ls ks gs trees Hh Hg Ho Hm)) as (p' & R & Ft & Xp).
    assert (L : parse_text rline acst read_root read_node pnew s = Ok p').
    { change (lrest pnew 1 s = Ok p'). apply prest_lrun. rewrite E. replace (a ++ h :: ls) with ((a ++ [h]) ++ ls) by now rewrite <- app_assoc.
      eapply lrun_pre; [exact Ha|apply sane_new|]. rewrite app_length. cbn [length].
      now replace (1 + N.of_nat (length a + 1))%N with (1 + N.of_nat (length a) + 1)%N by lia. }
    pose proof (read_tree_whole s p' L) as Wh. rewrite Ft in Wh.
    assert (We : wf_exts e).
    { destruct O as (_ & _ & _ & es & _ & _ & _ & _ & C & Ta). eapply adds_wf; [apply wf_empty|]. apply adds_iff. eauto. }
    assert (Xe' : xp_exts (pext p') = e) by congruence.
    unfold parse, parse_plan in *. rewrite L in *. cbn [rbind] in *. unfold build_plan in *. rewrite Xe', Ft in *.
    destruct (proj2 (trees_blame_iff reg e We trees n c Wh)) as (d & Hd & Hl & Hcd).
    - split; [exact B|]. intros m Hm'. apply (Hc m). now rewrite Hm'.
    - exists d. rewrite Hd. auto.
  Qed.
End Texts.
