(** The lines of the plan section, and whole texts. *)
From Coq Require Import String List NArith ZArith Bool Lia PeanoNat Sorted.
From Verif Require Import Base BaseFacts Peg OMap SimpleExt SimpleExtFacts Out ExtLines Lines LinesFacts SpecLines Tree SpecTree TreeFacts
  Names Literals RelGrammar Registry Rels RelRead Structural StructuralFacts LineView ReadFacts Plan BuildFacts Pest SpecGrammar Props_Grammar
  Props_Consumed SpecMeaning MeaningFacts MeaningRels PegYields ExtReadFacts SpecText TextFacts TextDecls TextRun.
Import ListNotations.
Local Open Scope string_scope.
Local Open Scope list_scope.
Local Open Scope nat_scope.

Lemma read_root_iff s y : read_root s = Ok y <-> exists tr r, matches the_grammar "top_level_relation" s tr r /\ top_pairs tr y.
Proof.
  unfold read_root. pose proof (proj1 C51_lines) as G. split.
  - intros H. destruct (g_top s) as [[x r]|] eqn:E; [|discriminate]. injection H as ->. apply G in E as (tr & H). eauto.
  - intros (tr & r & H). assert (E : g_top s = Some (y, r)) by (apply G; eauto). now rewrite E.
Qed.
Lemma read_node_iff s y : read_node s = Ok y <-> exists tr r, matches the_grammar "planNode" s tr r /\ node_pairs tr y.
Proof.
  unfold read_node. pose proof (proj2 C51_lines) as G. split.
  - intros H. destruct (g_node s) as [[x r]|] eqn:E; [|discriminate]. injection H as ->. apply G in E as (tr & H). eauto.
  - intros (tr & r & H). assert (E : g_node s = Some (y, r)) by (apply G; eauto). now rewrite E.
Qed.
Lemma read_root_header s y : read_root s = Ok y -> starts_with (L "===") s = false.
Proof.
  unfold read_root. destruct (g_top s) as [[x r]|] eqn:E; [|discriminate]. intros _. unfold g_top in E.
  apply palt_inv in E as [E|[_ E]].
  - apply pmap_inv in E as (z & E & _). apply root_leads in E as (w & ->). reflexivity.
  - destruct (node_leads s x r E) as (k & w & Hk & ->). unfold leads in Hk. cbn [In] in Hk.
    repeat (destruct Hk as [<-|Hk]; [reflexivity|]). contradiction.
Qed.

Notation reads := (reads_as rline acst read_root read_node).

(** ** Groups *)

Lemma continues_iff l c : is_cont (fst (indented l)) c = true <-> continues l c.
Proof.
  unfold is_cont, continues. pose proof (at_level_indented l) as Hl. pose proof (at_level_indented c) as Hc. split.
  - intros H. apply andb_true_iff in H as [H1 H2]. apply Nat.eqb_eq in H1. apply starts_with_iff in H2 as (u & H2).
    exists (fst (indented l)), (snd (indented l)), u. split; auto. rewrite H1, H2, Nat.add_1_r in Hc. exact Hc.
  - intros (d & t & u & H1 & H2). destruct (at_level_fun _ _ _ _ _ Hl H1) as [-> _]. destruct (at_level_fun _ _ _ _ _ Hc H2) as [-> ->].
    apply andb_true_iff. split; [apply Nat.eqb_eq; lia|]. apply starts_with_iff. eauto.
Qed.
Lemma grouped_chunk l ls ks : grouped (snd (lines_chunk true l ls)) ks -> grouped (l :: ls) ((l :: fst (lines_chunk true l ls)) :: ks).
Proof.
  unfold lines_chunk. intros H. pose proof (take_while_app (is_cont (fst (indented l))) ls) as E.
  destruct (take_while_spec (is_cont (fst (indented l))) ls) as [T1 T2]. destruct (take_while _ ls) as [a b]. cbn [fst snd] in *. subst ls.
  constructor; auto.
  - eapply Forall_impl; [|exact T1]. intros c. apply continues_iff.
  - intros c r -> Hc. apply continues_iff in Hc. congruence.
Qed.
Lemma chunk_grouped l cs rest : Forall (continues l) cs -> (forall c r, rest = c :: r -> ~ continues l c) ->
  lines_chunk true l (cs ++ rest) = (cs, rest).
Proof.
  intros H1 H2. unfold lines_chunk. apply take_while_exact.
  - eapply Forall_impl; [|exact H1]. intros c. apply continues_iff.
  - destruct rest as [|c r]; auto. specialize (H2 c r eq_refl). destruct (is_cont _ c) eqn:E; auto. apply continues_iff in E. contradiction.
Qed.

Lemma plan_run_sound ls : forall p n p', planning p = true -> lrun p n ls p' -> exists ks nodes, grouped ls ks /\
  Forall2 reads (filter written (number_groups n ks)) nodes /\ add_lines (ptree p) nodes = Ok (ptree p') /\
  pversion p' = pversion p /\ pext p' = pext p.
Proof.
  induction ls as [ls IH] using (well_founded_induction (Wf_nat.well_founded_ltof _ (@length (list N)))). unfold Wf_nat.ltof in IH.
  intros p n p' Hp H. destruct H as [p n|p n l ls p1 p' H1 H2].
  - exists [], []. repeat split; constructor.
  - rewrite Hp in *. pose proof (chunk_app true l ls) as Ha. set (k := l :: fst (lines_chunk true l ls)) in *.
    destruct (step_plan _ _ _ _ p n k p1 Hp H1) as [Hp1 Hs].
    assert (PV : pversion p1 = pversion p /\ pext p1 = pext p).
    { unfold step in H1. destruct (blank (unl k)); [injection H1 as <-; auto|].
      unfold parse_line in H1. destruct (indented (unl k)) as [i s] eqn:Ei.
      destruct (match i with 0 => _ | S _ => _ end).
      - apply rbind_ok in H1 as ([st v] & _ & H1). cbn [fst snd] in H1. unfold in_plan in Hp. destruct (state p); try discriminate.
        destruct st; discriminate.
      - unfold in_plan in Hp. destruct (state p); try discriminate. apply rbind_ok in H1 as (y & _ & H1). apply rbind_ok in H1 as (t & _ & H1).
        injection H1 as <-. auto. }
    destruct (IH (snd (lines_chunk true l ls))) with (p := p1) (n := (n + N.of_nat (length k))%N) (p' := p')
      as (ks & nodes & K1 & K2 & K3 & K4 & K5); auto.
    { rewrite <- Ha. unfold k. cbn. rewrite app_length. lia. }
    assert (G : grouped (l :: ls) (k :: ks)) by now apply grouped_chunk. exists (k :: ks).
    destruct PV as [V1 V2]. destruct (written (n, k)) eqn:Ew.
    + destruct Hs as (x & Hx & Hx2). exists (x :: nodes). cbn [number_groups filter]. rewrite Ew.
      repeat split; auto; try congruence. cbn [add_lines]. destruct x as [d y]. cbn [fst snd] in Hx2. now rewrite Hx2.
    + exists nodes. cbn [number_groups filter]. rewrite Ew. subst p1. auto.
Qed.

Lemma reads_header n k x : reads (n, k) x -> starts_with (L "===") (group_text k) = false.
Proof.
  intros (Hi & y & Hy & _). cbn [snd] in *. destruct (starts_with (L "===") (group_text k)) eqn:E; auto.
  apply indented_header in E as [E E']. rewrite E in *. cbn [fst snd] in *. rewrite Hi in Hy. cbn [Nat.eqb] in Hy.
  apply read_root_header in Hy. congruence.
Qed.
Lemma plan_run_complete ls ks : grouped ls ks -> forall p n nodes t, planning p = true ->
  Forall2 reads (filter written (number_groups n ks)) nodes -> add_lines (ptree p) nodes = Ok t ->
  lrun p n ls (mkp SPlan (pversion p) (pext p) t).
Proof.
  induction 1 as [|l cs rest ks H1 H2 Hg IH]; intros p n nodes t Hp Hr Ha.
  - cbn in Hr. inversion Hr; subst. injection Ha as <-. destruct p as [st v x t]. unfold in_plan in Hp. cbn in *.
    destruct st; try discriminate. constructor.
  - pose proof (chunk_grouped l cs rest H1 H2) as Hc. cbn [number_groups filter] in Hr.
    assert (E : lrun p n (l :: cs ++ rest) (mkp SPlan (pversion p) (pext p) t) <-> exists p1, lstep p n (unl (l :: cs)) = Ok p1 /\
      lrun p1 (n + N.of_nat (length (l :: cs))) rest (mkp SPlan (pversion p) (pext p) t)).
    { split.
      - intros H. inversion_clear H as [|? ? ? ? p1 ? G1 G2]. rewrite Hp, Hc in *. cbn [fst snd] in *. eauto.
      - intros (p1 & G1 & G2). eapply lr_step; rewrite Hp, Hc; cbn [fst snd]; eauto. }
    apply E. clear E. rewrite <- group_text_unl. destruct (written (n, l :: cs)) eqn:Ew.
    + inversion Hr as [|? x ? nodes' Hx Hr']; subst. destruct x as [d y]. cbn [add_lines] in Ha.
      destruct (add_line (ptree p) d y) as [t1| |] eqn:Ea; try discriminate.
      exists (mkp SPlan (pversion p) (pext p) t1). split.
      * apply (step_plan_ok _ _ _ _ p n (l :: cs) (d, y) t1 Hp Ew Hx Ea). eapply reads_header; eauto.
      * apply (IH (mkp SPlan (pversion p) (pext p) t1) _ nodes' t eq_refl Hr' Ha).
    + exists p. split; [|now apply IH with nodes].
      unfold step. unfold written in Ew. cbn [snd] in Ew. apply negb_false_iff in Ew. now rewrite Ew.
Qed.

(** ** Numbers of lines *)

Notation unn := (unnumber_lnode rline acst).
Notation unb := (unnumber_builder rline acst).
Definition unx (x : nat * lnode rline acst) : nat * lnode rline acst := (fst x, unn (snd x)).

Lemma reads_means k x : reads k x -> group_means (snd k) x.
Proof.
  intros (Hi & y & Hy & Hx). exists (snd (indented (group_text (snd k)))).
  pose proof (at_level_indented (group_text (snd k))) as Hl. rewrite <- Hi in Hl.
  destruct (fst x) as [|d] eqn:Ed; cbn [Nat.eqb] in Hy.
  - apply read_root_iff in Hy as (tr & r & H1 & H2). exists tr, r, y. split; auto. split; [left; auto|]. eauto.
  - apply read_node_iff in Hy as (tr & r & H1 & H2). exists tr, r, y. split; auto. split; [right; split; [lia|auto]|]. eauto.
Qed.
Lemma means_reads n k x : group_means k x -> exists x', reads (n, k) x' /\ unx x' = unx x.
Proof.
  intros (t & tr & r & y & Hl & Hy & m & Hx). exists (fst x, match y with inl a => LRel a n | inr a => LAdd a n end). split.
  - unfold reads_as. cbn [fst snd]. apply indented_iff in Hl. rewrite Hl. cbn [fst snd]. split; auto. exists y. split; auto.
    destruct Hy as [(E & H1 & H2)|(E & H1 & H2)].
    + rewrite E. cbn [Nat.eqb]. apply read_root_iff. eauto.
    + destruct (fst x); [congruence|]. cbn [Nat.eqb]. apply read_node_iff. eauto.
  - unfold unx. cbn [fst snd]. rewrite Hx. now destruct y.
Qed.
Lemma numbered_snd n ks : map snd (filter written (number_groups n ks)) = filter (fun k => negb (blank (group_text k))) ks.
Proof.
  revert n; induction ks as [|k ks IH]; intros n; cbn [number_groups filter]; auto. unfold written at 1. cbn [snd].
  destruct (blank (group_text k)); cbn [negb map snd]; now rewrite IH.
Qed.
Lemma only_groups ks gs : only written_group ks gs <-> gs = filter (fun k => negb (blank (group_text k))) ks.
Proof. apply only_filter. intros k. unfold written_group. now rewrite <- blank_false, negb_true_iff. Qed.
Lemma numbered_means (nks : list (N * list (list N))) xs : Forall2 group_means (map snd nks) xs ->
  exists xs', Forall2 reads nks xs' /\ map unx xs' = map unx xs.
Proof.
  revert xs; induction nks as [|[n k] nks IH]; intros xs H; inversion H as [|? x ? xs' H1 H2]; subst.
  - exists []. auto.
  - destruct (IH _ H2) as (ys & I1 & I2). cbn [snd] in H1. destruct (means_reads n k x H1) as (y & J1 & J2).
    exists (y :: ys). split; [now constructor|]. cbn [map]. now rewrite I2, J2.
Qed.
Lemma add_lines_unnumber xs : forall b, add_lines (unb b) (map unx xs) = rmap unb (add_lines b xs).
Proof.
  induction xs as [|[d x] xs IH]; intros b; [reflexivity|]. cbn [map unx fst snd add_lines]. rewrite add_line_unnumber.
  destruct (add_line b d x); cbn [rmap rbind]; auto.
Qed.

Section Build.
  Context {F : Floats}.

  Lemma build_unnumber reg e t p : build_plan_rel reg e t = Ok p <-> build_plan_rel reg e (unnumber t) = Ok p.
  Proof.
    pose proof (build_numbers reg e t) as H. destruct (build_plan_rel reg e t), (build_plan_rel reg e (unnumber t)); cbn in H; try discriminate;
      unfold id in H; split; congruence.
  Qed.
  Lemma trees_unnumber reg e ts ts' ps : map unnumber ts = map unnumber ts' ->
    Forall2 (fun t p => build_plan_rel reg e t = Ok p) ts ps -> Forall2 (fun t p => build_plan_rel reg e t = Ok p) ts' ps.
  Proof.
    intros E H. revert ts' E; induction H as [|t p ts ps H _ IH]; intros [|t' ts'] E; try discriminate; [constructor|].
    cbn [map] in E. assert (E1 : unnumber t = unnumber t') by congruence. assert (E2 : map unnumber ts = map unnumber ts') by congruence.
    constructor; auto. apply build_unnumber. rewrite <- E1. now apply (build_unnumber reg e t).
  Qed.

  (** ** Whole texts *)

  Lemma text_sound reg s p : parse reg s = Ok p -> text_means reg s p.
  Proof.
    unfold parse, parse_plan. intros H. apply rbind_ok in H as (p' & H1 & H). unfold build_plan in H. apply rbind_ok in H as (rels & H2 & [= <-]).
    change (lrest pnew 1 s = Ok p') in H1. apply prest_lrun in H1.
    apply lrun_split in H1 as (a & b & p1 & E & Hpre & Hb); [|intros ?; discriminate].
    apply pre_sound in Hpre as (blanks & vls & els & pls & v & es & e & -> & W & V & X & Ad & N1 & N2 & N3 & N4).
    apply rlist_iff in H2. pose proof (adds_wf _ _ _ wf_empty Ad) as We.
    assert (Tr : plan_section (pls ++ b) (finish (ptree p')) /\ pversion p' = v /\ xp_exts (pext p') = e).
    { destruct Hb as [(-> & -> & Hp)|(Hp & Hr)].
      - destruct N4 as [[-> _]|(h & _ & _ & N4)]; [|congruence]. rewrite N3. repeat split; auto. constructor.
      - destruct N4 as [[_ N4]|(h & -> & Hh & _)]; [congruence|].
        destruct (plan_run_sound _ _ _ _ Hp Hr) as (ks & nodes & K1 & K2 & K3 & K4 & K5). rewrite K4, K5. repeat split; auto.
        rewrite N3 in K3. apply add_lines_flatten in K3. cbn in K3. cbn [app].
        apply pl_some with (ks := ks) (gs := filter (fun k => negb (blank (group_text k))) ks); auto; [now apply only_groups|].
        change (finish builder_empty) with (@nil (rnode rline acst)) in K3. cbn in K3. rewrite K3.
        rewrite <- (numbered_snd (1 + N.of_nat (length (blanks ++ vls ++ els ++ [h]))) ks).
        clear - K2. induction K2 as [|k0 x0 ks0 xs0 H0 _ IH0]; [constructor|]. cbn [map]. constructor; auto. now apply reads_means. }
    destruct Tr as (Tr & T1 & T2). rewrite T2 in *. apply adds_iff in Ad as [C T].
    exists blanks, vls, els, (pls ++ b), es, (finish (ptree p')), e. cbn [pl_version pl_urns pl_decls pl_rels].
    split; [rewrite E, <- !app_assoc; reflexivity|]. split; auto. split; [now rewrite T1|]. split; auto. split; auto. split; auto. split; auto.
    split; [|split].
    - clear - H2 We. induction H2 as [|t q ts qs H _ IH]; constructor; auto. now apply (proj1 (plan_tree_iff reg e We t q)).
    - reflexivity.
    - unfold to_extension_declarations. apply map_ext. now intros [[a k] [u n]].
  Qed.

  Lemma text_run s blanks vls els pls v es e trees : text_lines s = blanks ++ vls ++ els ++ pls -> Forall white blanks ->
    version_section vls v -> extension_section els es -> adds exts_empty es e -> plan_section pls trees ->
    exists p', lrun pnew 1 (text_lines s) p' /\ pversion p' = v /\ xp_exts (pext p') = e /\
      map unnumber (finish (ptree p')) = map unnumber trees.
  Proof.
    intros E W V X Ad Pl. rewrite E. destruct Pl as [|h ls ks gs trees Hh Hg Ho Hm].
    - destruct (pre_complete blanks vls els [] _ es e W V X Ad (or_introl eq_refl)) as (p1 & H1 & N1 & N2 & N3 & N4).
        exists p1. split; [|rewrite N3; auto]. rewrite <- (app_nil_r (blanks ++ _)). eapply lrun_pre; eauto; [intros ?; discriminate|constructor].
    - destruct (pre_complete blanks vls els [h] _ es e W V X Ad) as (p1 & H1 & N1 & N2 & N3 & N4); [eauto|].
        destruct N4 as [[N4 _]|(h' & _ & _ & N4)]; [discriminate|].
        set (n := (1 + N.of_nat (length (blanks ++ vls ++ els ++ [h])))%N).
        apply only_groups in Ho. subst gs. rewrite <- (numbered_snd n ks) in Hm. apply numbered_means in Hm as (nodes & M1 & M2).
        destruct (add_lines_forest rline acst trees builder_empty) as (b & B1 & B2). cbn in B2.
        assert (Z : rmap unb (add_lines builder_empty nodes) = rmap unb (Ok b : res tree_error _)).
        { rewrite <- B1, <- !add_lines_unnumber. now rewrite M2. }
        destruct (add_lines builder_empty nodes) as [b'| |] eqn:B3; cbn [rmap rbind] in Z; try discriminate.
        assert (Z' : unb b' = unb b) by congruence. clear Z.
        exists (mkp SPlan (pversion p1) (pext p1) b'). split; [|split; [exact N1|split; [exact N2|]]].
        + replace (blanks ++ vls ++ els ++ h :: ls) with ((blanks ++ vls ++ els ++ [h]) ++ ls) by (rewrite <- !app_assoc; reflexivity).
          eapply lrun_pre; eauto; [intros ?; discriminate|]. apply plan_run_complete with (ks := ks) (nodes := nodes); auto. now rewrite N3.
        + cbn [ps_tree]. rewrite <- !finish_unnumber, Z', finish_unnumber, B2. reflexivity.
  Qed.

  Lemma text_complete reg s p : text_means reg s p -> parse reg s = Ok p.
  Proof.
    intros (blanks & vls & els & pls & es & trees & e & E & W & V & X & C & T & Pl & Rl & U & D).
    pose proof (proj2 (adds_iff es e) (conj C T)) as Ad. pose proof (adds_wf _ _ _ wf_empty Ad) as We.
    destruct (text_run s blanks vls els pls _ es e trees E W V X Ad Pl) as (p' & Hr & R1 & R2 & R3).
    apply prest_lrun in Hr. unfold parse, parse_plan.
    assert (Pt : parse_text rline acst read_root read_node pnew s = Ok p') by exact Hr. rewrite Pt. cbn [rbind]. unfold build_plan.
    assert (Rs : rlist (build_plan_rel reg (xp_exts (pext p'))) (finish (ptree p')) = Ok (pl_rels _ p)).
    { apply rlist_iff. rewrite R2. apply trees_unnumber with (ts := trees); auto.
      clear - Rl We. induction Rl as [|t q ts qs H _ IH]; constructor; auto. now apply (proj2 (plan_tree_iff reg e We t q)). }
    rewrite Rs. cbn [rbind]. rewrite R1, R2. f_equal. destruct p as [v us ds rs]. cbn [pl_version pl_urns pl_decls pl_rels] in *. subst us ds.
    f_equal. unfold to_extension_declarations. apply map_ext. now intros [[a k] [u n]].
  Qed.
End Build.
