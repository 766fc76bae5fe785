(** The line parser and the meaning of texts. *)
From Coq Require Import String List NArith ZArith Bool Lia PeanoNat Sorted.
From Verif Require Import Base BaseFacts Peg OMap SimpleExt SimpleExtFacts Out ExtLines Lines LinesFacts SpecLines Tree SpecTree TreeFacts
  Names Literals RelGrammar Registry Rels RelRead Structural StructuralFacts LineView ReadFacts Plan BuildFacts Pest SpecGrammar Props_Grammar
  Props_Consumed SpecMeaning MeaningFacts MeaningTimes MeaningExprs MeaningRels SpecText.
Import ListNotations.
Local Open Scope string_scope.
Local Open Scope list_scope.
Local Open Scope nat_scope.

(** ** Lines *)

Definition ends_clear (t : list N) : Prop := forall a c, t = a ++ [c] -> ~ In c white_space.

Lemma trim_end_iff s t : trim_end s = t <-> exists w, s = t ++ w /\ white w /\ ends_clear t.
Proof.
  split.
  - intros <-. destruct (trim_end_by_split is_ws s) as (w & E & Hw). exists w. split; [exact E|]. split; [now apply white_iff|].
    intros a c Ea Hc. apply white_space_iff in Hc.
    pose proof (trim_end_idem is_ws s) as I. change (trim_end_by is_ws s) with (trim_end s) in I, E. rewrite Ea in I.
    rewrite trim_end_by_drop in I by (cbn; now rewrite Hc).
    destruct (trim_end_by_split is_ws a) as (v & Ev & _). apply (f_equal (@length N)) in I, Ev.
    rewrite app_length in I, Ev. cbn in I. lia.
  - intros (w & -> & Hw & Ht). apply white_iff in Hw. unfold trim_end. rewrite trim_end_by_drop by auto.
    destruct t as [|x t] using rev_ind; [reflexivity|]. rewrite trim_end_by_app.
    + cbn. specialize (Ht t x eq_refl). rewrite <- white_space_iff in Ht. destruct (is_ws x); [congruence|reflexivity].
    + cbn. specialize (Ht t x eq_refl). rewrite <- white_space_iff in Ht. destruct (is_ws x); [congruence|discriminate].
Qed.

Lemma skipn_repeat {X} (x : X) n m : skipn n (repeat x (n + m)) = repeat x m.
Proof. induction n as [|n IH]; auto. Qed.

Lemma spaces_span s : exists k r, s = repeat 32%N k ++ r /\ fst (span (fun c => (c =? c_sp)%N) s) = repeat 32%N k
  /\ forall r', r <> 32%N :: r'.
Proof.
  induction s as [|c s (k & r & E1 & E2 & E3)].
  - exists 0, []. repeat split. discriminate.
  - cbn [span]. destruct (N.eqb_spec c c_sp) as [->|Hc].
    + exists (S k), r. rewrite E1. destruct (span _ s) as [a b] eqn:Es. cbn [fst] in E2. subst a. rewrite <- E1, Es. cbn. subst s. auto.
    + exists 0, (c :: s). repeat split. intros r' [= -> _]. now apply Hc.
Qed.

Lemma indented_iff l d t : indented l = (d, t) <-> at_level d l t.
Proof.
  unfold indented. split.
  - pose proof (proj1 (trim_end_iff l (trim_end l)) eq_refl) as (w & El & Hw & He).
    destruct (spaces_span (trim_end l)) as (k & r & E1 & E2 & E3). rewrite E2, repeat_length.
    intros [= Hd Ht]. exists w.
    assert (K : k = 2 * d \/ k = 2 * d + 1).
    { rewrite (Nat.div2_odd k), Hd. destruct (Nat.odd k); cbn [Nat.b2n]; [right|left]; lia. }
    rewrite Hd in Ht. rewrite E1 in Ht.
    assert (T : repeat 32%N (2 * d) ++ t = trim_end l /\ (t = r \/ t = 32%N :: r)).
    { rewrite E1, <- Ht. replace (d * 2) with (2 * d) by lia. destruct K as [->| ->].
      - rewrite skipn_app, repeat_length, Nat.sub_diag, skipn_all2 by (rewrite repeat_length; lia). cbn [skipn app]. auto.
      - rewrite repeat_app, <- !app_assoc. rewrite skipn_app, repeat_length, Nat.sub_diag, skipn_all2 by (rewrite repeat_length; lia).
        cbn [skipn app repeat]. auto. }
    destruct T as [T T']. split; [rewrite El, <- T, <- app_assoc; reflexivity|]. split; [exact Hw|].
    split; [|split].
    + intros a c ->. apply (He (repeat 32%N (2 * d) ++ a)). now rewrite <- T, app_assoc.
    + intros r' ->. destruct T' as [H|H]; [now apply (E3 (32%N :: r'))|]. injection H as H. now apply (E3 r').
    + intros ->. rewrite app_nil_r in T. destruct d as [|d]; auto. exfalso.
      assert (E : repeat 32%N (2 * S d) = repeat 32%N (S (2 * d)) ++ [32%N]).
      { replace (2 * S d) with (S (2 * d) + 1) by lia. now rewrite repeat_app. }
      rewrite E in T. apply (He _ _ (eq_sym T)). cbn. tauto.
  - intros (w & -> & Hw & He & Hs & Hz).
    assert (E : trim_end (repeat 32%N (2 * d) ++ t ++ w) = repeat 32%N (2 * d) ++ t).
    { apply trim_end_iff. exists w. rewrite <- app_assoc. repeat split; auto. intros a c Ha.
      destruct t as [|x t] using rev_ind.
      - rewrite (Hz eq_refl) in Ha. cbn in Ha. now destruct a.
      - rewrite app_assoc in Ha. apply app_inj_tail in Ha as [_ <-]. now apply (He t). }
    rewrite E. clear E.
    assert (S : exists k, fst (span (fun c => (c =? c_sp)%N) (repeat 32%N (2 * d) ++ t)) = repeat 32%N k /\ (k = 2 * d \/ k = 2 * d + 1)).
    { assert (G : forall n, fst (span (fun c => (c =? c_sp)%N) (repeat 32%N n ++ t)) = repeat 32%N n ++ fst (span (fun c => (c =? c_sp)%N) t)).
      { induction n as [|n IH]; [reflexivity|]. cbn [repeat app span]. destruct (span _ (repeat 32%N n ++ t)) as [a b]. cbn in IH |- *. now rewrite IH. }
      rewrite G. destruct t as [|c t]; [exists (2 * d); cbn; rewrite app_nil_r; auto|]. cbn [span].
      destruct (N.eqb_spec c c_sp) as [->|]; [|exists (2 * d); cbn; rewrite app_nil_r; auto].
      exists (2 * d + 1). split; auto. rewrite repeat_app. f_equal. destruct t as [|c t]; [reflexivity|]. cbn [span].
      destruct (N.eqb_spec c c_sp) as [->|]; [|reflexivity]. now destruct (Hs t). }
    destruct S as (k & -> & K). rewrite repeat_length.
    assert (D : Nat.div2 k = d).
    { destruct K as [->| ->]; [apply Nat.div2_double|]. rewrite Nat.add_1_r. apply Nat.div2_succ_double. }
    rewrite D. f_equal. rewrite skipn_app, repeat_length. replace (d * 2) with (2 * d) by lia. rewrite Nat.sub_diag.
    rewrite skipn_all2 by (rewrite repeat_length; lia). reflexivity.
Qed.
Lemma at_level_indented l : at_level (fst (indented l)) l (snd (indented l)).
Proof. apply indented_iff. now destruct (indented l). Qed.
Lemma at_level_fun d l t d' t' : at_level d l t -> at_level d' l t' -> d = d' /\ t = t'.
Proof. intros H H'. apply indented_iff in H, H'. split; congruence. Qed.

Lemma blank_iff l : blank l = true <-> white l.
Proof. apply white_iff. Qed.
Lemma blank_false l : blank l = false <-> ~ white l.
Proof. rewrite <- blank_iff. destruct (blank l); split; congruence. Qed.
Lemma white_level l : white l <-> at_level 0 l [].
Proof.
  rewrite <- indented_iff, <- blank_iff. unfold blank, indented. rewrite <- trim_end_by_all. change (trim_end_by is_ws l) with (trim_end l).
  split.
  - intros ->. reflexivity.
  - destruct (trim_end l) as [|c r] eqn:E; auto. intros [= H1 H2].
    destruct (Nat.div2 _); [|discriminate]. cbn in H2. discriminate.
Qed.
Lemma level_text d l t : at_level d l t -> ~ white l -> t <> [].
Proof. intros H Hw ->. apply Hw. destruct H as (w & -> & H & _ & _ & Z). rewrite (Z eq_refl) in *. cbn in *. exact H. Qed.

Lemma only_filter {X} (P : X -> Prop) (f : X -> bool) l m : (forall x, f x = true <-> P x) -> only P l m <-> m = filter f l.
Proof.
  intros H. split.
  - induction 1 as [|x l m Hx _ IH|x l m Hx _ IH]; cbn; auto.
    + apply H in Hx. now rewrite Hx, IH.
    + rewrite <- H in Hx. destruct (f x); [congruence|auto].
  - intros ->. induction l as [|x l IH]; cbn; [constructor|]. destruct (f x) eqn:E.
    + constructor; auto. now apply H.
    + apply on_skip; auto. rewrite <- H. congruence.
Qed.

(** ** The version *)

Lemma number_chars s z : number s z -> Forall (fun c => digit c \/ c = 45%N \/ c = 43%N) s /\ s <> [] /\ Forall (fun c => digit c \/ True) s.
Proof.
  assert (G : forall s, Forall digit s -> Forall (fun c => digit c \/ c = 45%N \/ c = 43%N) s) by (intros; eapply Forall_impl; [|eassumption]; cbn; auto).
  assert (T : forall s : list N, Forall (fun c => digit c \/ True) s) by (intros; apply Forall_forall; auto).
  destruct 1 as [s [H1 H2]|s [H1 H2]|s [H1 H2]]; repeat split; auto; try discriminate; try (constructor; auto).
Qed.
Lemma number_clear s z : number s z -> Forall (fun c => ~ In c white_space /\ c <> 46%N) s /\ s <> [].
Proof.
  intros H. apply number_chars in H as (H & H' & _). split; auto. eapply Forall_impl; [|exact H]. cbv beta. intros c Hc.
  rewrite <- white_space_iff. unfold is_ws. unfold digit in Hc.
  split; [|lia]. destruct Hc as [Hc|[->| ->]]; [|discriminate|discriminate].
  intros E. rewrite !orb_true_iff, !andb_true_iff, !N.leb_le, !N.eqb_eq in E. lia.
Qed.

Definition dotless (s : list N) : Prop := Forall (fun c => c <> 46%N) s.
Lemma split_dots_app s r : dotless s -> split_dots (s ++ 46%N :: r) = s :: split_dots r.
Proof.
  induction 1 as [|c s Hc H IH]; [reflexivity|]. cbn [app split_dots]. apply N.eqb_neq in Hc. now rewrite Hc, IH.
Qed.
Lemma split_dots_one s : dotless s -> split_dots s = [s].
Proof. induction 1 as [|c s Hc H IH]; [reflexivity|]. cbn [split_dots]. apply N.eqb_neq in Hc. now rewrite Hc, IH. Qed.
Fixpoint dotted (ps : list (list N)) : list N :=
  match ps with [] => [] | [p] => p | p :: r => p ++ 46%N :: dotted r end.
Lemma split_dots_dotted s : dotted (split_dots s) = s /\ split_dots s <> [].
Proof.
  induction s as [|c s [IH IH']]; [split; [reflexivity|discriminate]|]. cbn [split_dots]. destruct (N.eqb_spec c 46) as [->|].
  - split; [|discriminate]. destruct (split_dots s) as [|p ps]; [congruence|]. cbn [dotted app] in *. now rewrite IH.
  - destruct (split_dots s) as [|p ps]; [congruence|]. split; [|discriminate]. destruct ps; cbn [dotted app] in *; now rewrite IH.
Qed.
Lemma next_number_iff n ps k r : next_number n ps = Ok (k, r) <-> exists p, ps = p :: r /\ natural p k.
Proof.
  unfold next_number, natural. destruct ps as [|[|c p] ps].
  - split; [discriminate|]. intros (p & E & _). discriminate.
  - split; [discriminate|]. intros (p & E & H & _). injection E as <- <-. apply number_clear in H as [_ H]. congruence.
  - destruct (parse_u32 (c :: p)) as [m|] eqn:E.
    + split.
      * intros [= <- <-]. exists (c :: p). split; auto. now apply parse_u32_iff.
      * intros (q & [= <- <-] & H). apply parse_u32_iff in H. congruence.
    + split; [discriminate|]. intros (q & [= <- <-] & H). apply parse_u32_iff in H. congruence.
Qed.

Lemma trim_iff s t : trim s = t <-> exists w w', s = w ++ t ++ w' /\ white w /\ white w' /\ stops is_ws t /\ ends_clear t.
Proof.
  unfold trim. rewrite trim_end_iff. split.
  - intros (w' & E & Hw & He). apply trim_start_iff in E as (w & -> & Hw' & Hs).
    destruct t as [|c t].
    + destruct w' as [|x w']; [exists w, []; repeat split; auto; constructor|].
      cbn in Hs. inversion_clear Hw as [|? ? H _]. apply white_space_iff in H. congruence.
    + exists w, w'. auto 6.
  - intros (w & w' & -> & Hw & Hw' & Hs & He).
    destruct t as [|c t].
    + exists []. repeat split; auto; [|constructor]. apply trim_start_iff. exists (w ++ w'). rewrite !app_nil_r. repeat split; auto.
      now apply Forall_app.
    + exists w'. split; auto. apply trim_start_iff. exists w. auto.
Qed.

Lemma version_numbers_iff n rest v : parse_version_header n rest = Ok v <->
  exists w w' sa sb sc a b c, rest = w ++ (sa ++ L "." ++ sb ++ L "." ++ sc) ++ w' /\ white w /\ white w'
    /\ natural sa a /\ natural sb b /\ natural sc c /\ v = mk_version a b c [] [].
Proof.
  unfold parse_version_header. split.
  - intros H. apply rbind_ok in H as ([a p1] & H1 & H). apply rbind_ok in H as ([b p2] & H2 & H). apply rbind_ok in H as ([c p3] & H3 & H).
    cbn [fst snd] in *. apply next_number_iff in H1 as (sa & E1 & N1). apply next_number_iff in H2 as (sb & -> & N2).
    apply next_number_iff in H3 as (sc & -> & N3). destruct p3; [|discriminate]. injection H as <-.
    pose proof (proj1 (split_dots_dotted (trim rest))) as D. rewrite E1 in D. cbn [dotted] in D.
    symmetry in D. apply trim_iff in D as (w & w' & -> & Hw & Hw' & _). exists w, w', sa, sb, sc, a, b, c. auto 8.
  - intros (w & w' & sa & sb & sc & a & b & c & -> & Hw & Hw' & Na & Nb & Nc & ->).
    pose proof (number_clear _ _ (proj1 Na)) as [Ca Ca']. pose proof (number_clear _ _ (proj1 Nb)) as [Cb _].
    pose proof (number_clear _ _ (proj1 Nc)) as [Cc Cc'].
    assert (D : forall s, Forall (fun c => ~ In c white_space /\ c <> 46%N) s -> dotless s) by (intros s; apply Forall_impl; tauto).
    assert (E : trim (w ++ (sa ++ L "." ++ sb ++ L "." ++ sc) ++ w') = sa ++ L "." ++ sb ++ L "." ++ sc).
    { apply trim_iff. exists w, w'. repeat split; auto.
      - destruct sa as [|x sa]; [congruence|]. cbn. inversion_clear Ca as [|? ? [H _] _]. rewrite <- white_space_iff in H. now destruct (is_ws x).
      - intros u y Hu. destruct sc as [|y' sc] using rev_ind; [congruence|]. rewrite !app_assoc in Hu. apply app_inj_tail in Hu as [_ <-].
        apply Forall_app in Cc as [_ Cc]. now inversion_clear Cc. }
    rewrite E. change (L ".") with [46%N]. cbn [app]. rewrite !split_dots_app by auto. rewrite split_dots_one by auto.
    assert (G : forall m s k r, natural s k -> next_number m (s :: r) = Ok (k, r)) by (intros; apply next_number_iff; eauto).
    rewrite (G n sa a) by auto. cbn [rbind snd]. rewrite (G n sb b) by auto. cbn [rbind snd]. rewrite (G n sc c) by auto. reflexivity.
Qed.

Lemma version_header_level h a b c : version_header h a b c ->
  exists x, at_level 0 h (L "=== Version " ++ x) /\ ~ white h.
Proof.
  intros (w & w' & sa & sb & sc & -> & Hw & Hw' & Na & Nb & Nc). exists (w ++ sa ++ L "." ++ sb ++ L "." ++ sc).
  pose proof (number_clear _ _ (proj1 Nc)) as [Cc Cc']. split.
  - exists w'. split; [cbn [repeat Nat.mul app]; rewrite <- !app_assoc; reflexivity|]. repeat split; auto.
    + intros u y Hu. destruct sc as [|y' sc] using rev_ind; [congruence|]. rewrite !app_assoc in Hu. apply app_inj_tail in Hu as [_ <-].
      apply Forall_app in Cc as [_ Cc]. now inversion_clear Cc.
    + discriminate.
  - intros H. change (L "=== Version ") with (61%N :: L "== Version ") in H. cbn [app] in H. inversion_clear H as [|? ? H1 _].
    apply white_space_iff in H1. discriminate.
Qed.

Lemma streqb_iff a b : streqb a b = true <-> a = b.
Proof. split; [apply streqb_eq|]. intros ->. apply streqb_refl. Qed.

Notation lparser := (parser rline acst).

Lemma section_header_iff (p : lparser) n h t st v : at_level 0 h t ->
  parse_section_header rline acst p n t = Ok (st, v) <->
  (t = L "=== Extensions" /\ st = SExtensions /\ v = ps_version _ _ p) \/
  (t = L "=== Plan" /\ st = SPlan /\ v = ps_version _ _ p) \/
  (exists a b c, version_header h a b c /\ st = SVersion /\ v = Some (mk_version a b c [] [])).
Proof.
  intros Hl. unfold parse_section_header, hdr_extensions, hdr_plan, hdr_version.
  assert (VN : forall a b c x, version_header h a b c -> t = x -> exists r, x = L "=== Version " ++ r).
  { intros a b c x Hv ->. apply version_header_level in Hv as (r & Hr & _). destruct (at_level_fun _ _ _ _ _ Hl Hr) as [_ ->]. eauto. }
  destruct (streqb t (L "=== Extensions")) eqn:E1; [apply streqb_eq in E1|].
  { split; [intros [= <- <-]; auto|]. intros [(_ & -> & ->)|[(E & _)|(a & b & c & Hv & _)]]; auto.
    - subst t. discriminate.
    - destruct (VN _ _ _ _ Hv E1) as (r & E). discriminate. }
  destruct (streqb t (L "=== Plan")) eqn:E2; [apply streqb_eq in E2|].
  { split; [intros [= <- <-]; auto|]. intros [(E & _)|[(_ & -> & ->)|(a & b & c & Hv & _)]]; auto.
    - subst t. discriminate.
    - destruct (VN _ _ _ _ Hv E2) as (r & E). discriminate. }
  assert (N1 : t <> L "=== Extensions") by (intros ->; discriminate). assert (N2 : t <> L "=== Plan") by (intros ->; discriminate). clear E1 E2.
  assert (R : forall X Y Z : Prop, (X <-> Z) -> (X <-> (t = L "=== Extensions" /\ Y) \/ (t = L "=== Plan" /\ Y) \/ Z)) by tauto.
  destruct (strip_prefix (L "=== Version") t) as [rest|] eqn:E3.
  2: { split; [discriminate|]. intros [[E _]|[[E _]|(a & b & c & Hv & _)]]; try congruence. destruct (VN _ _ _ _ Hv eq_refl) as (r & ->).
       discriminate. }
  apply strip_prefix_spec in E3. subst t.
  destruct Hl as (w2 & Eh & Hw2 & He & _). cbn [repeat Nat.mul app] in Eh.
  split.
  - intros H. right; right. destruct (match rest with [] => true | _ => _ end) eqn:E; [|discriminate].
    apply rmap_ok in H as (v' & H & [= -> ->]).
    apply version_numbers_iff in H as (w & w' & sa & sb & sc & a & b & c & -> & Hw & Hw' & Na & Nb & Nc & ->).
    exists a, b, c. split; auto. 
    assert (Hw0 : exists w1, w = 32%N :: w1).
    { destruct w as [|x w]; [exfalso|].
      - pose proof (number_clear _ _ (proj1 Na)) as [Ca Ca']. destruct sa as [|x sa]; [congruence|]. cbn [app] in E.
        apply N.eqb_eq in E. subst x. inversion_clear Ca as [|? ? [H _] _]. apply H. cbn. tauto.
      - cbn [app] in E. apply N.eqb_eq in E. subst x. eauto. }
    destruct Hw0 as (w1 & ->). inversion_clear Hw. exists w1, (w' ++ w2), sa, sb, sc. repeat split; auto; try apply Na; try apply Nb; try apply Nc.
    + rewrite Eh. change (L "=== Version ") with (L "=== Version" ++ [32%N]). rewrite <- !app_assoc. cbn [app]. now rewrite <- ?app_assoc.
    + now apply Forall_app.
  - intros [[E _]|[[E _]|(a & b & c & Hv & -> & ->)]]; try congruence.
    destruct Hv as (w & w' & sa & sb & sc & E & Hw & Hw' & Na & Nb & Nc).
    assert (Er : rest = 32%N :: w ++ sa ++ L "." ++ sb ++ L "." ++ sc).
    { assert (T : trim_end h = L "=== Version" ++ rest) by (apply trim_end_iff; exists w2; auto).
      assert (T' : trim_end h = L "=== Version " ++ w ++ sa ++ L "." ++ sb ++ L "." ++ sc).
      { apply trim_end_iff. exists w'. rewrite <- !app_assoc. repeat split; auto. intros u y Hu.
        pose proof (number_clear _ _ (proj1 Nc)) as [Cc Cc']. destruct sc as [|y' sc] using rev_ind; [congruence|].
        rewrite !app_assoc in Hu. apply app_inj_tail in Hu as [_ <-]. apply Forall_app in Cc as [_ Cc]. now inversion_clear Cc. }
      rewrite T in T'. change (L "=== Version ") with (L "=== Version" ++ [32%N]) in T'. rewrite <- app_assoc in T'. now apply app_inv_head in T'. }
    rewrite Er. cbn [app]. change (32 =? c_sp)%N with true. cbv iota.
    assert (V : parse_version_header n (32%N :: w ++ sa ++ L "." ++ sb ++ L "." ++ sc) = Ok (mk_version a b c [] [])).
    { apply version_numbers_iff. exists (32%N :: w), [], sa, sb, sc, a, b, c. rewrite app_nil_r. repeat split; auto; try apply Na; try apply Nb; try apply Nc.
      - constructor; auto. cbn. tauto.
      - constructor. }
    rewrite V. reflexivity.
Qed.

Lemma detail_iff n v l t : at_level 1 l t -> forall v', parse_version_detail n (Some v) t = Ok v' <->
  (exists x, detail l "producer" x /\ v' = mk_version (v_major v) (v_minor v) (v_patch v) x (v_git v)) \/
  (exists x, detail l "git_hash" x /\ v' = mk_version (v_major v) (v_minor v) (v_patch v) (v_producer v) x).
Proof.
  intros Hl v'. unfold parse_version_detail.
  assert (K : forall key x, contains_char c_colon (L key) = false -> stops is_ws (L key) -> ends_clear (L key) -> detail l key x ->
    exists k r, split_at_char c_colon t = Some (k, r) /\ trim k = L key /\ trim r = x).
  { intros key x Hc Hk Hk' (t' & w & w' & w'' & Hl' & -> & Hw & Hw' & Hw'' & Hx).
    destruct (at_level_fun _ _ _ _ _ Hl Hl') as [_ ->]. exists (w ++ L key ++ w'), (w'' ++ x). repeat split.
    - replace (w ++ L key ++ w' ++ L ":" ++ w'' ++ x) with ((w ++ L key ++ w') ++ c_colon :: w'' ++ x) by (rewrite <- !app_assoc; reflexivity).
      apply split_at_char_app. rewrite !contains_char_app, Hc.
      assert (G : forall u, white u -> contains_char c_colon u = false).
      { intros u. induction 1 as [|c u Hu _ IH]; [reflexivity|]. unfold contains_char in *. cbn. rewrite IH, orb_false_r. apply N.eqb_neq. intros E.
        subst c. apply white_space_iff in Hu. discriminate. }
      now rewrite !G.
    - apply trim_iff. exists w, w'. auto.
    - apply trim_iff. exists w'', []. rewrite app_nil_r. repeat split; auto; [constructor| |].
      + destruct x as [|c x]; [exact I|]. cbn. specialize (Hx c x eq_refl). rewrite <- white_space_iff in Hx. now destruct (is_ws c).
      + intros a c ->. destruct Hl' as (w0 & _ & _ & He & _). apply (He (w ++ L key ++ w' ++ L ":" ++ w'' ++ a)). now rewrite <- !app_assoc. }
  assert (D : forall k r, split_at_char c_colon t = Some (k, r) -> forall key, trim k = L key -> detail l key (trim r)).
  { intros k r E key Hk. apply split_at_char_spec in E as [E _]. apply trim_iff in Hk as (w & w' & -> & Hw & Hw' & _).
    pose proof (proj1 (trim_iff r (trim r)) eq_refl) as (w1 & w2 & Er & H1 & H2 & H3 & H4).
    assert (W : w2 = []).
    { destruct w2 as [|x w2] using rev_ind; auto. exfalso. destruct Hl as (w0 & _ & _ & He & _).
      apply (He ((w ++ L key ++ w') ++ c_colon :: w1 ++ trim r ++ w2) x).
      - rewrite E. rewrite Er at 1. rewrite <- !app_assoc. cbn [app]. now rewrite <- !app_assoc.
      - apply Forall_app in H2 as [_ H2]. now inversion_clear H2. }
    subst w2. rewrite app_nil_r in Er. exists t, w, w', w1. repeat split; auto.
    - rewrite E, Er at 1. rewrite <- !app_assoc. reflexivity.
    - intros c x Hx. rewrite Hx in H3. cbn in H3. rewrite <- white_space_iff. congruence. }
  assert (P1 : contains_char c_colon (L "producer") = false) by reflexivity.
  assert (P2 : contains_char c_colon (L "git_hash") = false) by reflexivity.
  assert (Q1 : stops is_ws (L "producer")) by reflexivity.
  assert (Q2 : stops is_ws (L "git_hash")) by reflexivity.
  assert (R1 : ends_clear (L "producer")).
  { intros a c E. change (L "producer") with (L "produce" ++ [114%N]) in E. apply app_inj_tail in E as [_ <-]. rewrite <- white_space_iff. discriminate. }
  assert (R2 : ends_clear (L "git_hash")).
  { intros a c E. change (L "git_hash") with (L "git_has" ++ [104%N]) in E. apply app_inj_tail in E as [_ <-]. rewrite <- white_space_iff. discriminate. }
  destruct (split_at_char c_colon t) as [[k r]|] eqn:E.
  2: { split; [discriminate|]. intros [(x & H & _)|(x & H & _)].
       - destruct (K _ _ P1 Q1 R1 H) as (? & ? & ? & _). discriminate.
       - destruct (K _ _ P2 Q2 R2 H) as (? & ? & ? & _). discriminate. }
  destruct (streqb (trim k) (L "producer")) eqn:E1; [apply streqb_eq in E1|].
  - split.
    + intros [= <-]. left. exists (trim r). split; auto. now apply (D k r).
    + intros [(x & H & ->)|(x & H & ->)].
      * destruct (K _ _ P1 Q1 R1 H) as (? & ? & [= <- <-] & _ & ->). reflexivity.
      * destruct (K _ _ P2 Q2 R2 H) as (? & ? & [= <- <-] & E2 & _). rewrite E1 in E2. discriminate.
  - destruct (streqb (trim k) (L "git_hash")) eqn:E2; [apply streqb_eq in E2|].
    + split.
      * intros [= <-]. right. exists (trim r). split; auto. now apply (D k r).
      * intros [(x & H & ->)|(x & H & ->)].
        -- destruct (K _ _ P1 Q1 R1 H) as (? & ? & [= <- <-] & E3 & _). rewrite E2 in E3. discriminate.
        -- destruct (K _ _ P2 Q2 R2 H) as (? & ? & [= <- <-] & _ & ->). reflexivity.
    + split; [discriminate|]. intros [(x & H & _)|(x & H & _)].
      * destruct (K _ _ P1 Q1 R1 H) as (? & ? & [= <- <-] & E3 & _). rewrite E3 in E1. discriminate.
      * destruct (K _ _ P2 Q2 R2 H) as (? & ? & [= <- <-] & E3 & _). rewrite E3 in E2. discriminate.
Qed.
