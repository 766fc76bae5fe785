(** Splitting a plan section at lines that are not indented. *)
From Coq Require Import String List NArith ZArith Bool Lia PeanoNat.
From Verif Require Import Base BaseFacts Peg OMap SimpleExt SimpleExtFacts Out ExtLines Lines LinesFacts SpecLines Tree SpecTree TreeFacts
  Names Literals RelGrammar Registry Rels RelRead Structural StructuralFacts LineView ReadFacts Plan BuildFacts Pest SpecGrammar Props_Grammar
  Props_Consumed SpecMeaning MeaningFacts MeaningRels PegYields ExtReadFacts SpecText TextFacts TextDecls TextRun TextPlan Props_Text SpecBlocks.
Import ListNotations.
Local Open Scope string_scope.
Local Open Scope list_scope.
Local Open Scope nat_scope.

(** ** The header of the plan is the only one *)

Lemma header_not l d t : plan_header l -> at_level d l t -> (d, t) = (0, L "=== Plan").
Proof. intros H H'. destruct (at_level_fun _ _ _ _ _ H H') as [<- <-]. reflexivity. Qed.
Lemma header_white l : plan_header l -> ~ white l.
Proof. intros H W. apply white_level in W. apply (header_not _ _ _ H) in W. discriminate. Qed.
Lemma only_in {X} (P : X -> Prop) l m x : only P l m -> In x l -> P x -> In x m.
Proof. induction 1 as [|y l m|y l m]; intros Hx Px; [destruct Hx|..]; destruct Hx as [Hx|Hx]; subst; try contradiction; cbn; auto. Qed.
Lemma details_in v ls v' : details v ls v' -> forall l, In l ls -> exists t, at_level 1 l t.
Proof. induction 1; intros l' Hl; [destruct Hl|..]; destruct Hl as [<-|Hl]; auto; eapply detail_level; eauto. Qed.
Lemma version_no_header ls v l : version_section ls v -> In l ls -> ~ plan_header l.
Proof.
  intros [|h a b c r ws v' Hh Ho Hd] Hl Hp; [destruct Hl|]. destruct Hl as [<-|Hl].
  - apply version_header_level in Hh as (x & Hh & _). apply (header_not _ _ _ Hp) in Hh. discriminate.
  - apply (only_in _ _ _ _ Ho) in Hl; [|now apply header_white]. apply (details_in _ _ _ Hd) in Hl as (t & Ht).
    apply (header_not _ _ _ Hp) in Ht. discriminate.
Qed.
Lemma line_level {X} (R : list N -> X -> Prop) : (forall l x, R l x -> exists t, at_level 1 l t) ->
  forall ls xs l, Forall2 R ls xs -> In l ls -> ~ plan_header l.
Proof.
  intros HR ls xs l. induction 1 as [|a x ls xs H _ IH]; intros Hl Hp; [destruct Hl|]. destruct Hl as [<-|Hl]; [|now apply IH].
  apply HR in H as (t & Ht). apply (header_not _ _ _ Hp) in Ht. discriminate.
Qed.
Lemma subsection_no_header ls es l : subsection ls es -> In l ls -> ~ plan_header l.
Proof.
  intros [h r us Hh H|h r us Hh H|h r us Hh H|h r us Hh H] [<-|Hl] Hp;
    try (apply (header_not _ _ _ Hp) in Hh; discriminate);
    (eapply line_level in Hp; [destruct Hp| |exact H|exact Hl]).
  - intros x u (t & tr & a & Ht & _). eauto.
  - intros x u (t & tr & a & b & n & Ht & _). eauto.
  - intros x u (t & tr & a & b & n & Ht & _). eauto.
  - intros x u (t & tr & a & b & n & Ht & _). eauto.
Qed.
Lemma extension_no_header ls es l : extension_section ls es -> In l ls -> ~ plan_header l.
Proof.
  intros [|h r subs ess Hh Ho Hs] Hl Hp; [destruct Hl|]. destruct Hl as [<-|Hl].
  - apply (header_not _ _ _ Hp) in Hh. discriminate.
  - apply (only_in _ _ _ _ Ho) in Hl; [|now apply header_white]. clear Ho. induction Hs as [|s e subs ess H _ IH]; [destruct Hl|].
    cbn [concat] in Hl. apply in_app_iff in Hl as [Hl|Hl]; auto. eapply subsection_no_header; eauto.
Qed.
Lemma grouped_in ls ks l : grouped ls ks -> In l ls -> exists k cs, In (k :: cs) ks /\ (l = k \/ continues k l).
Proof.
  induction 1 as [|a cs rest ks H1 _ _ IH]; [intros []|]. intros [<-|Hl].
  - exists a, cs. split; [now left|now left].
  - apply in_app_iff in Hl as [Hl|Hl].
    + exists a, cs. split; [now left|right]. rewrite Forall_forall in H1. auto.
    + destruct (IH Hl) as (k & c & Hk & H). exists k, c. split; [now right|exact H].
Qed.
Lemma group_not_white l cs : ~ white l -> ~ white (group_text (l :: cs)).
Proof. intros H W. apply H. unfold group_text in W. cbn [map concat] in W. apply Forall_app in W as [W _]. now apply Forall_app in W as [W _]. Qed.
Lemma plan_no_header h ls trees l : plan_section (h :: ls) trees -> In l ls -> ~ plan_header l.
Proof.
  intros H Hl Hp. inversion H as [|h' ls' ks gs ts Hh Hg Ho Hm]; subst.
  destruct (grouped_in _ _ _ Hg Hl) as (k & cs & Hk & [<-|Hc]).
  - apply (only_in _ _ _ _ Ho) in Hk; [|now apply group_not_white, header_white].
    assert (G : exists x, group_means (l :: cs) x).
    { clear - Hk Hm. induction Hm as [|g x gs xs Hx _ IH]; [destruct Hk|]. destruct Hk as [<-|Hk]; eauto. }
    destruct G as (x & G). destruct (means_reads 0 _ _ G) as (x' & G' & _). apply reads_header in G'.
    destruct Hp as (w & -> & _). discriminate G'.
  - destruct Hc as (d & t & u & _ & Hc). apply (header_not _ _ _ Hp) in Hc. discriminate.
Qed.

Lemma split_same {X} (P : X -> Prop) a h b a' h' b' : a ++ h :: b = a' ++ h' :: b' -> P h -> P h' ->
  (forall x, In x a -> ~ P x) -> (forall x, In x b -> ~ P x) -> a = a' /\ h = h' /\ b = b'.
Proof.
  revert a'. induction a as [|x a IH]; intros [|x' a'] E Ph Ph' Ha Hb; cbn [app] in E; injection E as E1 E2; subst.
  - auto.
  - exfalso. apply (Hb h'); auto. apply in_app_iff. right. now left.
  - exfalso. apply (Ha h'); auto. now left.
  - destruct (IH a' E2 Ph Ph') as (-> & -> & ->); auto. intros y Hy. apply Ha. now right.
Qed.

Section Means.
  Context {F : Floats}.

  (** What comes before the header. *)
  Definition preamble (h0 : list (list N)) (v : option version) (e : exts) : Prop :=
    exists blanks vls els es, h0 = blanks ++ vls ++ els /\ Forall white blanks /\ version_section vls v
      /\ extension_section els es /\ coherent es /\ table_of es e.
  Definition made_plan (v : option version) (e : exts) (rels : list plan_rel) : pplan :=
    mk_plan _ v (map (fun x => mk_urn (fst x) (snd x)) (e_urns e))
      (map (fun x => Some (mk_decl (snd (fst x)) (fst (snd x)) (fst (fst x)) (snd (snd x)))) (e_decls e)) rels.
  Lemma means_at reg s h0 h ls p : plan_header h -> text_lines s = h0 ++ h :: ls ->
    text_means reg s p <-> exists v e trees rels, preamble h0 v e /\ plan_section (h :: ls) trees
      /\ Forall2 (plan_tree_means reg e) trees rels /\ p = made_plan v e rels.
  Proof.
    intros Hh E. split.
    - intros (blanks & vls & els & pls & es & trees & e & E' & W & V & X & C & T & Pl & Rl & H1 & H2).
      assert (N : forall x, In x (blanks ++ vls ++ els) -> ~ plan_header x).
      { intros x Hx. rewrite !in_app_iff in Hx. destruct Hx as [Hx|[Hx|Hx]].
        - rewrite Forall_forall in W. intros G. apply header_white in G. auto.
        - eapply version_no_header; eauto.
        - eapply extension_no_header; eauto. }
      rewrite E in E'. inversion Pl as [Ep|h' ls' ks gs ts Hh' Hg Ho Hm Ep]; subst pls.
      + exfalso. rewrite app_nil_r in E'. apply (N h); auto. rewrite <- E'. apply in_app_iff. right. now left.
      + replace (blanks ++ vls ++ els ++ h' :: ls') with ((blanks ++ vls ++ els) ++ h' :: ls') in E' by (rewrite <- !app_assoc; reflexivity).
        symmetry in E'. apply (split_same plan_header) in E' as (E1 & -> & ->); auto; [|intros x; eapply plan_no_header; eauto].
        exists (pl_version _ p), e, trees, (pl_rels _ p). split; [exists blanks, vls, els, es; auto 8|]. split; [exact Pl|]. split; [exact Rl|].
        destruct p as [v us ds rs]. cbn [pl_version pl_urns pl_decls pl_rels] in *. unfold made_plan. now rewrite H1, H2.
    - intros (v & e & trees & rels & (blanks & vls & els & es & -> & W & V & X & C & T) & Pl & Rl & ->).
      exists blanks, vls, els, (h :: ls), es, trees, e. cbn [made_plan pl_version pl_urns pl_decls pl_rels]. rewrite <- !app_assoc in E. auto 12.
  Qed.
  (** The preamble has one meaning. *)
  Lemma preamble_one h0 v e v' e' : preamble h0 v e -> preamble h0 v' e' -> forall r, made_plan v e r = made_plan v' e' r /\ e = e'.
  Proof.
    intros H H' r. 
    assert (G : forall v e, preamble h0 v e -> exists p, lrun pnew 1 h0 p /\ pversion p = v /\ xp_exts (pext p) = e).
    { clear. intros v e (blanks & vls & els & es & -> & W & V & X & C & T).
      destruct (pre_complete blanks vls els [] v es e W V X (proj2 (adds_iff es e) (conj C T)) (or_introl eq_refl)) as (p & Hp & N1 & N2 & _).
      exists p. rewrite app_nil_r in Hp. split; [|auto]. rewrite <- (app_nil_r (blanks ++ _)). eapply lrun_pre; [exact Hp|intros ?; discriminate|constructor]. }
    destruct (G _ _ H) as (p & R & <- & <-). destruct (G _ _ H') as (p' & R' & <- & <-).
    enough (p = p') as -> by auto. clear - R R'. revert p' R'. induction R as [p n|p n l ls p1 p2 H1 _ IH]; intros p' R'; inversion R'; subst; auto.
    assert (p1 = p3) as <- by congruence. auto.
  Qed.
End Means.

(** ** Splitting what follows *)

Lemma unindented_fresh l b : unindented b -> ~ continues l b.
Proof. intros (t & Ht & _) (d & t' & u & _ & H). destruct (at_level_fun _ _ _ _ _ Ht H) as [E _]. discriminate E. Qed.
Definition fresh (b : list (list N)) : Prop := forall c r, b = c :: r -> unindented c.

Lemma grouped_app a ka b kb : grouped a ka -> fresh b -> grouped b kb -> grouped (a ++ b) (ka ++ kb).
Proof.
  intros H Hb Gb. induction H as [|l cs rest ks H1 H2 _ IH]; auto. cbn [app]. rewrite <- app_assoc. constructor; auto.
  intros c r E. destruct rest as [|x rest]; cbn [app] in E.
  - apply unindented_fresh. eapply Hb; eauto.
  - injection E as -> _. eapply H2; eauto.
Qed.
Lemma grouped_split ls ks : grouped ls ks -> forall a b, ls = a ++ b -> fresh b ->
  exists ka kb, ks = ka ++ kb /\ grouped a ka /\ grouped b kb.
Proof.
  induction 1 as [|l cs rest ks H1 H2 G IH]; intros a b E Hb.
  - symmetry in E. apply app_eq_nil in E as [-> ->]. exists [], []. repeat split; constructor.
  - destruct a as [|x a]; cbn [app] in E.
    + exists [], ((l :: cs) :: ks). subst b. repeat split; constructor; auto.
    + injection E as <- E. apply app_eq_app in E as (m & [[E1 E2]|[E1 E2]]).
      * destruct m as [|y m].
        -- rewrite app_nil_r in E1. cbn in E2. subst. destruct (IH [] rest eq_refl Hb) as (ka & kb & -> & Ga & Gb).
           inversion Ga; subst. exists [l :: a], kb. repeat split; auto.
           pose proof (gr_group l a [] [] H1) as K. rewrite app_nil_r in K. apply K; [discriminate|constructor].
        -- exfalso. subst cs b. apply Forall_app in H1 as [_ H1]. inversion H1 as [|? ? Hc _]; subst. revert Hc. apply unindented_fresh. eapply Hb. reflexivity.
      * subst a. destruct (IH m b E2 Hb) as (ka & kb & -> & Ga & Gb). exists ((l :: cs) :: ka), kb. repeat split; auto.
        change (l :: cs ++ m) with (l :: (cs ++ m)). constructor; auto. intros c r ->. eapply H2. rewrite E2. reflexivity.
Qed.

Lemma group_level b cs d t : unindented b -> at_level d (group_text (b :: cs)) t -> d = 0.
Proof.
  intros (u & (w & -> & Hw & Hu & Hs & _) & Hn) (w' & E & _). destruct d as [|d]; auto. exfalso.
  unfold group_text in E. cbn [map concat] in E. replace (2 * S d) with (S (S (2 * d))) in E by lia. cbn [Nat.mul repeat app] in E.
  destruct u as [|c [|c' u]]; [congruence|..]; cbn [app] in E.
  - injection E as E _. subst c. apply (Hu [] 32%N eq_refl). vm_compute. tauto.
  - injection E as E1 E2 _. subst. now apply (Hs u).
Qed.

Lemma flatten_deep {R A} (t : rnode R A) : forall d, exists x r, flatten d t = (d, x) :: r /\ Forall (fun y => d < fst y) r.
Proof.
  induction t as [r l ads cs IH] using rnode_ind2. intros d. cbn [flatten]. eexists _, _. split; [reflexivity|]. apply Forall_app. split.
  - apply Forall_map, Forall_forall. intros a _. cbn. lia.
  - apply Forall_concat. apply Forall_map. eapply Forall_impl; [|exact IH]. intros c Hc. destruct (Hc (S d)) as (x & r' & -> & Hr).
    constructor; [cbn; lia|]. eapply Forall_impl; [|exact Hr]. cbn. intros; lia.
Qed.
Lemma flatten_split {R A} (ts : list (rnode R A)) : forall a b, flatten_all ts = a ++ b -> (forall x r, b = x :: r -> fst x = 0) ->
  exists ta tb, ts = ta ++ tb /\ flatten_all ta = a /\ flatten_all tb = b.
Proof.
  induction ts as [|t ts IH]; intros a b E Hb.
  - symmetry in E. apply app_eq_nil in E as [-> ->]. exists [], []. auto.
  - destruct a as [|x a]; [exists [], (t :: ts); auto|]. change (flatten_all (t :: ts)) with (flatten 0 t ++ flatten_all ts) in E.
    destruct (flatten_deep t 0) as (y & r & Et & Hr). rewrite Et in E. cbn [app] in E. injection E as <- E.
    apply app_eq_app in E as (m & [[E1 E2]|[E1 E2]]).
    + destruct m as [|z m].
      * rewrite app_nil_r in E1. cbn in E2. subst a b. exists [t], ts. repeat split. unfold flatten_all. cbn [map concat]. rewrite app_nil_r. exact Et.
      * exfalso. subst r. apply Forall_app in Hr as [_ Hr]. inversion Hr; subst. specialize (Hb z _ eq_refl). lia.
    + subst a. destruct (IH m b E2 Hb) as (ta & tb & -> & <- & <-). exists (t :: ta), tb. repeat split.
      change (flatten_all (t :: ta)) with (flatten 0 t ++ flatten_all ta). rewrite Et. reflexivity.
Qed.

Lemma plan_split h a b trees : plan_header h -> fresh b ->
  plan_section (h :: a ++ b) trees <-> exists ta tb, trees = ta ++ tb /\ plan_section (h :: a) ta /\ plan_section (h :: b) tb.
Proof.
  intros Hh Hb. split.
  - intros H. inversion H as [|h' ls ks gs ts _ Hg Ho Hm]; subst. destruct (grouped_split _ _ Hg a b eq_refl Hb) as (ka & kb & -> & Ga & Gb).
    apply only_groups in Ho. rewrite filter_app in Ho. subst gs. apply Forall2_app_inv_l in Hm as (na & nb & Ma & Mb & E).
    destruct (flatten_split trees na nb E) as (ta & tb & -> & <- & <-).
    { intros x r ->. inversion Gb as [|l cs rest kb' H1 H2 G]; subst; [inversion Mb|]. specialize (Hb l _ eq_refl).
      assert (Hw : blank (group_text (l :: cs)) = false).
      { apply blank_false, group_not_white. destruct Hb as (t & Ht & Hn). intros W. apply white_level in W.
        now destruct (at_level_fun _ _ _ _ _ Ht W) as [_ ->]. }
      cbn [filter] in Mb. rewrite Hw in Mb. cbn [negb] in Mb. inversion Mb as [|? ? ? ? (t & tr & rs & y & Hl & _) _]; subst.
      eapply group_level; eauto. }
    exists ta, tb. split; [reflexivity|]. split; (eapply pl_some; [exact Hh|eassumption|apply only_groups; reflexivity|assumption]).
  - intros (ta & tb & -> & Ha & Hb'). inversion Ha as [|? ? ka ga ? _ Ga Oa Ma]; subst. inversion Hb' as [|? ? kb gb ? _ Gb Ob Mb]; subst.
    apply only_groups in Oa, Ob. subst. eapply pl_some; [exact Hh|exact (grouped_app _ _ _ _ Ga Hb Gb)|apply only_groups; reflexivity|].
    rewrite filter_app, flatten_all_app. now apply Forall2_app.
Qed.

Lemma fresh_concat bs : Forall block bs -> fresh (concat bs).
Proof. destruct 1 as [|b bs (l & r & -> & H) _]; [discriminate|]. intros c x [= <- _]. exact H. Qed.
Lemma plan_none h trees : plan_header h -> plan_section [h] trees <-> trees = [].
Proof.
  intros Hh. split.
  - intros H. inversion H as [|? ? ks gs ? _ G O M]; subst. inversion G; subst. inversion O; subst.
    destruct trees as [|t ts]; auto. change (flatten_all (t :: ts)) with (flatten 0 t ++ flatten_all ts) in M.
    destruct (flatten_deep t 0) as (x & r & Et & _). rewrite Et in M. inversion M.
  - intros ->. eapply pl_some; [exact Hh|constructor|constructor|constructor].
Qed.
Lemma plan_concat h bs trees : plan_header h -> Forall block bs ->
  plan_section (h :: concat bs) trees <-> exists ts, trees = concat ts /\ Forall2 (fun b t => plan_section (h :: b) t) bs ts.
Proof.
  intros Hh Hb. revert trees. induction Hb as [|b bs H Hb IH]; intros trees; cbn [concat].
  - rewrite plan_none by auto. split; [intros ->; exists []; auto|]. intros (ts & -> & H). now inversion H.
  - rewrite plan_split by auto using fresh_concat. split.
    + intros (ta & tb & -> & Ha & H'). apply IH in H' as (ts & -> & Hs). exists (ta :: ts). auto.
    + intros (ts & -> & Hs). inversion Hs as [|? t ? ts' H1 H2]; subst. exists t, (concat ts'). split; [reflexivity|]. split; auto. apply IH. eauto.
Qed.

(** ** Single trees *)

Lemma read_root_black s y : read_root s = Ok y -> exists c r, s = c :: r /\ ~ In c white_space.
Proof.
  unfold read_root. destruct (g_top s) as [[x r]|] eqn:E; [|discriminate]. intros _. unfold g_top in E.
  apply palt_inv in E as [E|[_ E]].
  - apply pmap_inv in E as (z & E & _). apply root_leads in E as (w & ->). eexists _, _. split; [reflexivity|]. vm_compute. intuition discriminate.
  - destruct (node_leads s x r E) as (k & w & Hk & ->). unfold leads in Hk. cbn [In] in Hk.
    repeat (destruct Hk as [<-|Hk]; [eexists _, _; split; [reflexivity|vm_compute; intuition discriminate]|]). contradiction.
Qed.
Lemma indented_group l cs x : ~ unindented l -> group_means (l :: cs) x -> fst x <> 0.
Proof.
  intros Hl (t & tr & rs & y & Ht & [(Ex & H1 & H2)|[Hx _]] & _); [|exact Hx]. exfalso.
  assert (R : read_root t = Ok y) by (apply read_root_iff; eauto). apply read_root_black in R as (c & r & -> & Hc).
  destruct Ht as (w & E & _). rewrite Ex in E. cbn [Nat.mul repeat app] in E. unfold group_text in E. cbn [map concat] in E.
  pose proof (at_level_indented l) as Hi. destruct (indented l) as [d u]. cbn [fst snd] in Hi. destruct d as [|d].
  - destruct u as [|a u]; [|apply Hl; exists (a :: u); split; [exact Hi|discriminate]]. apply white_level in Hi.
    destruct l as [|a l]; cbn [app] in E; injection E as E _; subst c.
    + apply Hc. vm_compute. tauto.
    + inversion Hi; contradiction.
  - destruct Hi as (w' & -> & _). replace (2 * S d) with (S (S (2 * d))) in E by lia. cbn [repeat app] in E. injection E as E _. subst c.
    apply Hc. vm_compute. tauto.
Qed.
Lemma grouped_heads ls ks : grouped ls ks -> Forall (fun k => exists l cs, k = l :: cs /\ In l ls) ks.
Proof.
  induction 1 as [|l cs rest ks _ _ _ IH]; constructor.
  - exists l, cs. split; [reflexivity|now left].
  - eapply Forall_impl; [|exact IH]. intros k (l' & c & -> & H). exists l', c. split; [reflexivity|]. right. apply in_app_iff. now right.
Qed.
Lemma plan_single h b trees : single_block b -> plan_section (h :: b) trees -> exists t, trees = [t].
Proof.
  intros (l & r & -> & Hl & Hr) H. inversion H as [|? ? ks gs ? _ G O M]; subst. inversion G as [|? cs rest ks' H1 H2 G']; subst.
  apply only_groups in O. subst gs. assert (Hw : blank (group_text (l :: cs)) = false).
  { apply blank_false, group_not_white. destruct Hl as (t & Ht & Hn). intros W. apply white_level in W. now destruct (at_level_fun _ _ _ _ _ Ht W) as [_ ->]. }
  cbn [filter] in M. rewrite Hw in M. cbn [negb] in M. remember (flatten_all trees) as fl eqn:E. inversion M as [|? x ? xs _ Mr]; subst.
  assert (D : Forall (fun x => fst x <> 0) xs).
  { apply grouped_heads in G'. apply Forall_app in Hr as [_ Hr]. rewrite Forall_forall in Hr. clear - Mr G' Hr.
    remember (filter _ ks') as gs eqn:Eg. assert (G : Forall (fun k => exists l cs, k = l :: cs /\ In l rest) gs).
    { subst gs. rewrite Forall_forall in *. intros k Hk. apply filter_In in Hk as [Hk _]. auto. }
    clear Eg G'. induction Mr as [|k x gs xs Hx _ IH]; [constructor|]. inversion G as [|? ? (l & cs & E & Hl) G']; subst. constructor; [|auto].
    eapply indented_group; [|exact Hx]. auto. }
  match goal with K : x :: xs = _ |- _ => rename K into E end.
  destruct trees as [|t trees]; [discriminate|]. destruct trees as [|t' trees]; [eauto|]. exfalso.
  change (flatten_all (t :: t' :: trees)) with (flatten 0 t ++ flatten 0 t' ++ flatten_all trees) in E.
  destruct (flatten_deep t 0) as (y & q & Et & _), (flatten_deep t' 0) as (y' & q' & Et' & _). rewrite Et, Et' in E. cbn [app] in E.
  injection E as _ E. rewrite E in D. apply Forall_app in D as [_ D]. inversion D; subst. cbn in *. congruence.
Qed.
