(** C30: how much of a relation line is understood. *)
From Coq Require Import String List NArith ZArith Bool Lia PeanoNat.
From Verif Require Import Base BaseFacts Peg PegFacts PegYields Names SpecNames NamesFacts SimpleExt Out Anchors Types Lines SpecLines LinesFacts Tree
  Literals SpecLiterals Exprs SpecExprs ExtArgs ExtReadFacts Registry Rels RelGrammar RelRead ExtLines Structural StructuralFacts LineView ReadFacts RelayFacts
  ParsedFacts SpecPlan SpecVirtual PlanFacts Plan ConsumedFacts Props_Exprs Props_Literals SpecRegistry Props_Registry Props_Parse.
Import ListNotations.
Local Open Scope string_scope.
Local Open Scope list_scope.
Local Open Scope nat_scope.
Local Open Scope peg_scope.

(** ** First words *)

Definition leads : list (list N) :=
  [L "Read:Extension"; L "Read:Virtual"; L "Read["; L "Filter"; L "Project"; L "Aggregate"; L "Sort"; L "Fetch"; L "Join"; L "Set";
   L "Cross"; L "ExtensionLeaf"; L "ExtensionSingle"; L "ExtensionMulti"; L "+"].
Lemma tok_then_lead {A} t (q : peg A) s x : pthen (ptok t) q s = Some x -> exists w, s = t ++ w.
Proof.
  unfold pthen, pbind. destruct (ptok t s) as [[u w]|] eqn:E; [|discriminate]. intros _. exists w. now apply ptok_spec in E.
Qed.
Lemma node_leads s x r : g_node s = Some (x, r) -> exists k w, In k leads /\ s = k ++ w.
Proof.
  assert (One : forall A k (q : peg A) y, In k leads -> pthen (ptok k) q s = Some y -> exists k w, In k leads /\ s = k ++ w).
  { intros A k q y Hk H. apply tok_then_lead in H as (w & ->). eauto. }
  unfold g_node. intros H. apply palt_inv in H as [H|[_ H]]; apply pmap_inv in H as (y & H & _).
  - unfold g_relation in H.
    repeat (apply palt_inv in H as [H|[_ H]]; [first [ eapply One; [|exact H]; cbn; tauto | idtac ]|]).
    + unfold g_read in H. apply pthen_inv in H as (u & w & E & H). apply ptok_spec in E. apply pthen_inv in H as (u2 & w2 & E2 & H).
      apply ptok_spec in E2. subst. exists (L "Read["), w2. split; [cbn; tauto|reflexivity].
    + unfold g_ext in H. apply pbind_inv in H as (k & w & Hk & _). unfold g_xkind in Hk.
      apply palt_inv in Hk as [Hk|[_ Hk]]; [|apply palt_inv in Hk as [Hk|[_ Hk]]]; apply pmap_inv in Hk as (u & Hk & _); apply ptok_spec in Hk; subst;
        eexists _, w; (split; [|reflexivity]); cbn; tauto.
  - eapply One; [|exact H]. cbn. tauto.
Qed.
Lemma leads_no_root k w : In k leads -> g_root (k ++ w) = None.
Proof. intros H. repeat (destruct H as [<-|H]; [reflexivity|]). destruct H. Qed.
Lemma root_leads s x r : g_root s = Some (x, r) -> exists w, s = L "Root" ++ w.
Proof. unfold g_root. apply tok_then_lead. Qed.
Lemma root_no_node w : g_node (L "Root" ++ w) = None.
Proof. reflexivity. Qed.
Lemma node_no_root s x : g_node s = Some x -> g_root s = None.
Proof. destruct x as [x r]. intros H. apply node_leads in H as (k & w & Hk & ->). now apply leads_no_root. Qed.

(** ** The rest of the line *)

(** A virtual table is the one relation whose rule goes on to the end. *)
Definition is_virtual (x : rline + acst) : bool := match x with inl (YVirtual _ _ _) => true | _ => false end.

Lemma relation_keeps s y r : g_relation s = Some (y, r) -> is_virtual (inl y) = false ->
  exists t, s = t ++ c_cb :: r /\ forall r', g_relation (t ++ c_cb :: r') = Some (y, r').
Proof.
  intros H Hv.
  assert (D : (exists w, s = L "Read:Virtual" ++ w) \/ ptok (L "Read:Virtual") s = None).
  { destruct (ptok (L "Read:Virtual") s) as [[[] w]|] eqn:E; [left|now right]. apply ptok_spec in E. eauto. }
  destruct D as [(w & ->)|D].
  { exfalso. change (g_relation (L "Read:Virtual" ++ w)) with
      (match g_virtual (L "Read:Virtual" ++ w) with Some x => Some x | None => None end) in H.
    destruct (g_virtual _) as [x|] eqn:E in H; [|discriminate]. injection H as ->. unfold g_virtual in E.
    repeat (first [apply pthen_inv in E as (? & ? & _ & E) | apply pbind_inv in E as (? & ? & _ & E)]). injection E as <- <-. discriminate. }
  assert (V : forall s, ptok (L "Read:Virtual") s = None -> g_relation s = g_relation' s).
  { clear. intros s D. assert (E : forall q, (g_ext_read <|> g_virtual <|> q) s = (g_ext_read <|> q) s).
    { intros q. unfold palt. destruct (g_ext_read s); [reflexivity|]. unfold g_virtual, pthen, pbind. now rewrite D. }
    exact (E _). }
  rewrite (V s D) in H. destruct (lined_keeps _ lined_relation' s y r H) as (t & -> & G). exists t. split; [reflexivity|]. intros r'.
  rewrite V; [apply G|]. destruct (proj1 lined_relation' _ _ _ H) as (t' & E & Ht).
  assert (t' = t) as -> by (apply app_inv_tail in E; congruence).
  pose proof (strip_stops (L "Read:Virtual") eq_refl r r' t Ht) as S. unfold ptok in *.
  destruct (strip_prefix (L "Read:Virtual") (t ++ c_cb :: r)); [discriminate|]. now rewrite S.
Qed.
Lemma node_keeps s x r : g_node s = Some (x, r) -> is_virtual x = false ->
  exists t, s = t ++ c_cb :: r /\ forall r', g_node (t ++ c_cb :: r') = Some (x, r').
Proof.
  unfold g_node. intros H Hv. apply palt_inv in H as [H|[E H]]; apply pmap_inv in H as (y & H & ->).
  - destruct (relation_keeps s y r H Hv) as (t & -> & G). exists t. split; [reflexivity|]. intros r'. apply palt_l, pmap_some, G.
  - assert (A : forall s z, g_addendum s = Some z -> pmap (@inl rline acst) g_relation s = None).
    { clear. intros s z H. apply tok_then_lead in H as (w & ->). reflexivity. }
    destruct (lined_keeps _ lined_addendum s y r H) as (t & -> & G). exists t. split; [reflexivity|]. intros r'.
    apply palt_r; [eapply A; apply G|]. apply pmap_some, G.
Qed.
Lemma top_keeps s x r : g_top s = Some (x, r) -> is_virtual x = false ->
  exists t, s = t ++ c_cb :: r /\ forall r', g_top (t ++ c_cb :: r') = Some (x, r').
Proof.
  unfold g_top. intros H Hv. apply palt_inv in H as [H|[E H]].
  - apply pmap_inv in H as (y & H & ->). destruct (lined_keeps _ lined_root s y r H) as (t & -> & G). exists t. split; [reflexivity|]. intros r'.
    apply palt_l, pmap_some, G.
  - destruct (node_keeps s x r H Hv) as (t & -> & G). exists t. split; [reflexivity|]. intros r'.
    apply palt_r; [|apply G]. apply pmap_none. eapply node_no_root. apply G.
Qed.

(** The reader of a line at depth [d]. *)
Definition read_at (d : nat) : list N -> pres (rline + acst) := match d with O => read_root | S _ => read_node end.

(** What follows the closing bracket of an accepted relation, root or addendum is
    never looked at. *)
Theorem C30_rest_ignored : forall d s x, read_at d s = Ok x -> is_virtual x = false ->
  exists t r, s = t ++ L "]" ++ r /\ forall junk, read_at d (t ++ L "]" ++ junk) = Ok x.
Proof.
  intros d s x H Hv. destruct d as [|d]; cbn [read_at] in *; unfold read_root, read_node in *.
  - destruct (g_top s) as [[y r]|] eqn:E; [|discriminate]. injection H as ->. destruct (top_keeps s x r E Hv) as (t & -> & G).
    exists t, r. split; [reflexivity|]. intros junk. change (L "]" ++ junk) with (c_cb :: junk). now rewrite G.
  - destruct (g_node s) as [[y r]|] eqn:E; [|discriminate]. injection H as ->. destruct (node_keeps s x r E Hv) as (t & -> & G).
    exists t, r. split; [reflexivity|]. intros junk. change (L "]" ++ junk) with (c_cb :: junk). now rewrite G.
Qed.

(** The text of a virtual table is understood to its end, trailing spaces apart. *)
Definition ended {A} (p : peg A) : Prop := forall s a r, p s = Some (a, r) -> exists t n, s = t ++ L "]" ++ spaces n.
Lemma ended_bind {A B} (p : peg A) (f : A -> peg B) : tame p -> (forall a, ended (f a)) -> ended (pbind p f).
Proof.
  intros [Tp _] Hf s b r H. apply pbind_inv in H as (a & w & E & H). destruct (Tp _ _ _ E) as (t & -> & _).
  destruct (Hf a w b r H) as (t' & n & ->). exists (t ++ t'), n. now rewrite <- app_assoc.
Qed.
Lemma ended_then {A B} (p : peg A) (q : peg B) : tame p -> ended q -> ended (pthen p q).
Proof. intros Hp Hq. apply ended_bind; auto. Qed.
Lemma sp_spaces s u r : sp s = Some (u, r) -> exists n, s = spaces n ++ r.
Proof.
  unfold sp. intros H. apply pmap_inv in H as (a & H & _). unfold pwhile in H. injection H as H. revert a H.
  induction s as [|c s IH]; intros a H; cbn [span] in H; [injection H as <- <-; now exists 0|].
  destruct (N.eqb_spec c c_sp) as [->|].
  - destruct (span _ s) as [x y] eqn:E. injection H as <- <-. destruct (IH x eq_refl) as (n & ->). now exists (S n).
  - injection H as <- <-. now exists 0.
Qed.
Lemma ended_end {A} (a : A) : ended (ptok (L "]") ;;; relation_end ;;; pret a).
Proof.
  intros s x r H. apply pthen_inv in H as (u & w & E & H). apply ptok_spec in E as ->.
  apply pthen_inv in H as (u2 & w2 & E & _). unfold relation_end in E. apply pthen_inv in E as (u3 & w3 & E & H).
  apply sp_spaces in E as (n & ->). destruct w3; [|discriminate]. exists [], n. now rewrite app_nil_r.
Qed.
Lemma ended_virtual : ended g_virtual.
Proof.
  unfold g_virtual, relation_open, g_virtual_rows, g_virtual_row, g_empty, relation_comma, g_virtual_filter, relation_arrow.
  repeat first [ apply ended_end | apply ended_then; [solve [peg_tame]|] | apply ended_bind; [solve [peg_tame]|]; intros ? ].
Qed.
Lemma virtual_only s y r : g_relation s = Some (y, r) -> is_virtual (inl y) = true -> exists r', g_virtual s = Some (y, r').
Proof.
  unfold g_relation. intros H Hv.
  repeat (apply palt_inv in H as [H|[_ H]]);
    try (exfalso; repeat (first [apply pthen_inv in H as (? & ? & _ & H) | apply pbind_inv in H as (? & ? & _ & H)]); injection H as <- _; discriminate).
  eauto.
Qed.
Theorem C30_virtual_complete : forall d s x, read_at d s = Ok x -> is_virtual x = true -> exists t n, s = t ++ L "]" ++ spaces n.
Proof.
  assert (N : forall s x r, g_node s = Some (x, r) -> is_virtual x = true -> exists t n, s = t ++ L "]" ++ spaces n).
  { intros s x r H Hv. unfold g_node in H. apply palt_inv in H as [H|[_ H]]; apply pmap_inv in H as (y & H & ->); [|discriminate].
    destruct (virtual_only s y r H Hv) as (r' & E). exact (ended_virtual s y r' E). }
  intros d s x H Hv. destruct d as [|d]; cbn [read_at] in H; unfold read_root, read_node in H.
  - destruct (g_top s) as [[y r]|] eqn:E; [|discriminate]. injection H as ->. unfold g_top in E. apply palt_inv in E as [E|[_ E]]; [|eauto].
    apply pmap_inv in E as (y & E & ->). exfalso. unfold g_root in E.
    repeat (first [apply pthen_inv in E as (? & ? & _ & E) | apply pbind_inv in E as (? & ? & _ & E)]). injection E as <- _. discriminate.
  - destruct (g_node s) as [[y r]|] eqn:E; [|discriminate]. injection H as ->. eauto.
Qed.

(** ** Whole texts *)

Lemma read_lead d s x : read_at d s = Ok x -> exists c w, s = c :: w /\ hd_not is_ws [c] = true /\ c <> 45%N /\ c <> 61%N /\ c <> c_nl.
Proof.
  assert (K : forall k w, In k (L "Root" :: leads) -> exists c v, k ++ w = c :: v /\ hd_not is_ws [c] = true /\ c <> 45%N /\ c <> 61%N /\ c <> c_nl).
  { intros k w H. repeat (destruct H as [<-|H]; [eexists _, _; split; [reflexivity|]; repeat split; try reflexivity; discriminate|]). destruct H. }
  intros H. assert (E : exists k w, In k (L "Root" :: leads) /\ s = k ++ w).
  { assert (N : forall y, g_node s = Some y -> exists k w, In k (L "Root" :: leads) /\ s = k ++ w).
    { intros [y r] E. destruct (node_leads s y r E) as (k & w & Hk & ->). exists k, w. cbn [In]. auto. }
    destruct d as [|d]; cbn [read_at] in H; unfold read_root, read_node in H.
    - destruct (g_top s) as [[y r]|] eqn:E; [|discriminate]. unfold g_top in E. apply palt_inv in E as [E|[_ E]]; [|eauto].
      apply pmap_inv in E as (z & E & _). apply root_leads in E as (w & ->). exists (L "Root"), w. cbn [In]. auto.
    - destruct (g_node s) as [y|] eqn:E; [|discriminate]. eauto. }
  destruct E as (k & w & Hk & ->). now apply K.
Qed.
Lemma fresh_at k d c r : group_text k = spaces (2 * d) ++ c :: r -> line_group k ->
  hd_not is_ws [c] = true -> c <> 45%N -> c <> 61%N -> c <> c_nl -> fresh_group k.
Proof.
  intros E G Hw H1 H2 H3. split; [exact G|]. destruct k as [|l k]; [exact G|]. clear G.
  change (group_text (l :: k)) with ((l ++ [c_nl]) ++ group_text k) in E. rewrite <- app_assoc in E.
  change (c :: r) with ([c] ++ r) in E. rewrite app_assoc with (l := spaces (2 * d)) in E.
  apply first_line_has in E as (x & ->).
  2: { rewrite contains_char_app, spaces_nl. cbn [contains_char existsb orb]. apply orb_false_iff. split; [|reflexivity]. apply N.eqb_neq. congruence. }
  rewrite <- app_assoc. assert (S : seen (c :: x)) by (split; [exact Hw|discriminate]). split.
  - unfold continuation. change ([c] ++ x) with (c :: x). rewrite indented_at by exact S. cbn [snd]. unfold trim_end.
    destruct (trim_end_by is_ws (c :: x)) as [|c' v] eqn:Ex; [reflexivity|].
    destruct (trim_end_by_split is_ws (c :: x)) as (w & Ew & _). rewrite Ex in Ew. injection Ew as <- _.
    apply (starts_differ 45 (L " ")). congruence.
  - destruct (2 * d); apply (starts_differ 61 (L "==")); [congruence|discriminate].
Qed.
Lemma indented_spaces s d c t : indented s = (d, c :: t) -> c <> c_sp -> exists w, s = spaces (2 * d) ++ (c :: t) ++ w /\ forallb is_ws w = true.
Proof.
  unfold indented. intros E Hc. destruct (trim_end_by_split is_ws s) as (w & Es & Hw). fold trim_end in Es. set (l := trim_end s) in *.
  exists w. split; [|exact Hw]. rewrite Es at 1. rewrite app_assoc. f_equal. clearbody l. clear Es Hw w s.
  injection E as Ed Ek.
  assert (G : forall l, exists n, l = spaces n ++ snd (span (fun c => (c =? c_sp)%N) l) /\ n = length (fst (span (fun c => (c =? c_sp)%N) l))).
  { clear. induction l as [|x l (n & IH1 & IH2)]; cbn [span]; [now exists 0|]. destruct (N.eqb_spec x c_sp) as [->|]; [|now exists 0].
    destruct (span _ l) as [a b]. cbn [fst snd] in *. exists (S n). cbn [length]. split; [|lia]. rewrite IH1 at 1. reflexivity. }
  destruct (G l) as (n & E1 & E2). rewrite <- E2 in Ed, Ek. rewrite Ed in Ek.
  assert (Hn : n = 2 * d \/ n = S (2 * d)).
  { subst d. pose proof (Nat.div2_odd n). destruct (Nat.odd n); cbn [Nat.b2n] in *; lia. }
  rewrite E1 in Ek |- *. rewrite skipn_app in Ek. unfold spaces in Ek at 1 2. rewrite repeat_length in Ek.
  destruct Hn as [-> | ->].
  - rewrite skipn_all2 in Ek by (rewrite repeat_length; lia). replace (d * 2 - 2 * d) with 0 in Ek by lia. cbn [skipn app] in Ek. now rewrite Ek.
  - exfalso. replace (skipn (d * 2) (repeat c_sp (S (2 * d)))) with [c_sp] in Ek.
    + cbn [app] in Ek. congruence.
    + clear. replace (d * 2) with (2 * d) by lia. induction (2 * d); [reflexivity|exact IHn].
Qed.

(** In a whole text, whatever follows the closing bracket may be replaced: more text
    on the line, or continuation lines under it. *)
Theorem C30_text_rest_ignored : forall (F : Floats) reg before k after s d body x,
  (exists h, In h before /\ trim_end h = L "=== Plan") -> starts_fresh after = true -> line_group k ->
  text_lines s = before ++ k ++ after ->
  indented (group_text k) = (d, body) -> read_at d body = Ok x -> is_virtual x = false ->
  exists t r, body = t ++ L "]" ++ r /\
    forall junk k' s', line_group k' -> group_text k' = spaces (2 * d) ++ t ++ L "]" ++ junk ->
      text_lines s' = before ++ k' ++ after -> alike (parse reg s) (parse reg s').
Proof.
  intros F reg before k after s d body x Hh Hf Gk Es Ei Hr Hv.
  destruct (C30_rest_ignored d body x Hr Hv) as (t & r & Eb & G). exists t, r. split; [exact Eb|].
  intros junk k' s' Gk' Ek' Es'. apply parse_alike.
  destruct (read_lead d body x Hr) as (c & w & Ec & Hw & H1 & H2 & H3).
  assert (Hsp : c <> c_sp) by (intros ->; discriminate).
  assert (Et : exists w', forall z, t ++ L "]" ++ z = c :: w' ++ z).
  { destruct t as [|c' t].
    - exists []. intros z. specialize (G []). apply read_lead in G as (? & ? & E & _). cbn in E. cbn. rewrite Eb in Ec. cbn in Ec. injection Ec as <- _. reflexivity.
    - rewrite Eb in Ec. cbn [app] in Ec. injection Ec as -> _. exists (t ++ L "]"). intros z. cbn [app]. now rewrite <- app_assoc. }
  destruct Et as (w' & Et).
  pose proof Ei as Ei'. rewrite Ec in Ei'. destruct (indented_spaces _ _ _ _ Ei' Hsp) as (v & Ek & Hv').
  assert (S : forall z, seen (t ++ L "]" ++ z)).
  { intros z. rewrite Et. split; [exact Hw|discriminate]. }
  assert (Tr : exists z, trim_end (t ++ L "]" ++ junk) = t ++ L "]" ++ z).
  { unfold trim_end. destruct (trim_end_by is_ws junk) as [|c0 j] eqn:Ej.
    - exists []. rewrite app_assoc. rewrite trim_end_by_drop; [|now apply trim_end_by_all]. rewrite app_nil_r. apply trim_bracket.
    - exists (c0 :: j). rewrite app_assoc, trim_end_by_app by (rewrite Ej; discriminate). now rewrite Ej, <- app_assoc. }
  destruct Tr as (z & Tr).
  assert (Fk : fresh_group k) by (eapply (fresh_at k d c); eauto).
  assert (Fk' : fresh_group k') by (eapply (fresh_at k' d c); eauto; rewrite Ek', Et; reflexivity).
  assert (Ei2 : indented (group_text k') = (d, t ++ L "]" ++ z)) by (rewrite Ek', indented_at by apply S; now rewrite Tr).
  assert (Nz : forall z, read_root (t ++ L "]" ++ z) = read_root body /\ read_node (t ++ L "]" ++ z) = read_node body).
  { intros z0. assert (N : forall s y, read_node s = Ok y -> read_root s = Ok y).
    { clear. intros s y. unfold read_node, read_root, g_top. destruct (g_node s) as [[a b]|] eqn:E; [|discriminate]. intros [= ->].
      rewrite (palt_r (pmap inl g_root) g_node s _ (pmap_none _ _ _ (node_no_root s _ E)) E). reflexivity. }
    assert (R : forall s y, read_root s = Ok y -> (exists e, read_node s = Err e /\ e = PInvalid "planNode" /\ exists l, y = inl (YRoot l)) \/ read_node s = Ok y).
    { clear. intros s y. unfold read_node, read_root, g_top. destruct (palt _ _ s) as [[a b]|] eqn:E; [|discriminate]. intros [= ->].
      apply palt_inv in E as [E|[_ E]].
      - left. exists (PInvalid "planNode"). apply pmap_inv in E as (u & E & ->). split; [|split; [reflexivity|]].
        + apply root_leads in E as (q & ->). now rewrite root_no_node.
        + unfold g_root in E. repeat (first [apply pthen_inv in E as (? & ? & _ & E) | apply pbind_inv in E as (? & ? & _ & E)]).
          injection E as <- _. eauto.
      - right. now rewrite E. }
    assert (NR : forall s l, read_node s <> Ok (inl (YRoot l))).
    { clear. intros s l H. unfold read_node in H. destruct (g_node s) as [[a b]|] eqn:E; [|discriminate]. injection H as ->.
      unfold g_node in E. apply palt_inv in E as [E|[_ E]]; apply pmap_inv in E as (u & E & H); [|discriminate]. injection H as <-.
      unfold g_relation in E. repeat (apply palt_inv in E as [E|[_ E]]);
        repeat (first [apply pthen_inv in E as (? & ? & _ & E) | apply pbind_inv in E as (? & ? & _ & E)]); discriminate. }
    specialize (G z0). destruct d as [|d]; cbn [read_at] in *.
    - split; [congruence|]. destruct (R _ _ G) as [(e & -> & -> & l & ->)|Q].
      + destruct (R _ _ Hr) as [(e & -> & -> & _)|Q2]; [reflexivity|]. now apply NR in Q2.
      + destruct (R _ _ Hr) as [(e & _ & _ & l & ->)|Q2]; [now apply NR in Q|congruence].
    - split; [|congruence]. now rewrite (N _ _ G), (N _ _ Hr). }
  apply (same_group_same _ _ _ _ before k k' after); auto. unfold same_group. rewrite Ei, Ei2. cbn [fst snd].
  destruct (Nz z) as [-> ->]. repeat split.
  - rewrite Ek. apply not_blank. split; [exact Hw|discriminate].
  - rewrite Ek'. apply not_blank, S.
Qed.

Section Examples.
  #[local] Existing Instance ascii_tables.
  #[local] Existing Instance toy_floats.

  (** The claim itself is false: text after the bracket is accepted and ignored. *)
  Theorem C30_fully_understood_refuted : exists s s' p,
    s' <> s /\ parse registry_new s = Ok p /\ parse registry_new s' = Ok p /\
    s = pp_text ["=== Plan"; "Filter[$0 => $0]"; "  Read[t => a:i64]"] /\
    s' = pp_text ["=== Plan"; "Filter[$0 => $0], limit=5]"; "  Read[t => a:i64] 'x"; "    - (1)"].
  Proof.
    exists (pp_text ["=== Plan"; "Filter[$0 => $0]"; "  Read[t => a:i64]"]),
      (pp_text ["=== Plan"; "Filter[$0 => $0], limit=5]"; "  Read[t => a:i64] 'x"; "    - (1)"]). eexists.
    split; [discriminate|]. split; [vm_compute; reflexivity|]. split; [vm_compute; reflexivity|]. split; reflexivity.
  Qed.

  (** C30_rest_ignored applies to a line whose strings contain brackets and quotes. *)
  Example C30_example_line :
    exists x, read_at 1 (L "Project[$0, 'a] \'b':string, f('""]'):i64] junk] '") = Ok x /\ is_virtual x = false.
  Proof. eexists. vm_compute. split; reflexivity. Qed.
  (** C30_text_rest_ignored applies to the text of the refutation. *)
  Example C30_example_text : exists t r,
    L "Filter[$0 => $0], limit=5]" = t ++ L "]" ++ r /\
    forall junk k' s', line_group k' -> group_text k' = spaces (2 * 0) ++ t ++ L "]" ++ junk ->
      text_lines s' = [L "=== Plan"] ++ k' ++ [L "  Read[t => a:i64]"] ->
      alike (parse registry_new (pp_text ["=== Plan"; "Filter[$0 => $0], limit=5]"; "  Read[t => a:i64]"])) (parse registry_new s').
  Proof.
    eapply (C30_text_rest_ignored toy_floats registry_new [L "=== Plan"] [L "Filter[$0 => $0], limit=5]"] [L "  Read[t => a:i64]"] _ 0).
    - exists (L "=== Plan"). split; [now left|reflexivity].
    - reflexivity.
    - constructor.
    - reflexivity.
    - vm_compute. reflexivity.
    - vm_compute. reflexivity.
    - reflexivity.
  Qed.
  (** C30_virtual_complete: trailing spaces are all that may follow. *)
  Example C30_example_virtual : (exists x, read_at 1 (L "Read:Virtual[(1) => a:i64]  ") = Ok x /\ is_virtual x = true) /\
    exists e, read_at 1 (L "Read:Virtual[(1) => a:i64] x") = Err e.
  Proof. split; eexists; vm_compute; [split|]; reflexivity. Qed.
End Examples.
