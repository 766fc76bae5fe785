(** Grammars in which every rule comes to an end: a check, and what follows from it. *)
From Coq Require Import String List NArith Bool Lia Arith.
From Verif Require Import Base BaseFacts Pest PestFacts SpecSteps StepsFacts.
Import ListNotations.
Local Open Scope string_scope.
Local Open Scope list_scope.
Local Open Scope nat_scope.

Section Check.
  Variable G : grammar.

  (** May match without taking a character.  [n] bounds the rules looked into. *)
  Fixpoint nullable (n : nat) : qexp -> bool :=
    fix go x :=
      match x with
      | QTok t | QTokCI t => match t with [] => true | _ => false end
      | QAny | QClass _ => false
      | QSoi | QEoi | QNot _ | QOpt _ | QStar _ => true
      | QRef r =>
          match n, lookup G r with
          | S n', Some (_, b) => nullable n' b
          | S _, None => false
          | 0, _ => true
          end
      | QSeq a b => go a && go b
      | QAlt a b => go a || go b
      | QPlus a => go a
      end.

  Variable depth : nat.

  (** Before a character is taken at most [n] rules are entered, one within the other, and
      what is repeated takes a character. *)
  Fixpoint safe (n : nat) : qexp -> bool :=
    fix go x :=
      match x with
      | QRef r =>
          match n, lookup G r with
          | S n', Some (_, b) => safe n' b
          | _, _ => false
          end
      | QSeq a b => go a && (if nullable depth a then go b else true)
      | QAlt a b => go a && go b
      | QOpt a | QNot a => go a
      | QStar a | QPlus a => go a && negb (nullable depth a)
      | _ => true
      end.
  (** How many rules are entered before a character is taken, and one for every time that
      the work goes on afterwards. *)
  Fixpoint weight (n : nat) : qexp -> N :=
    fix go x :=
      match x with
      | QRef r =>
          match n, lookup G r with
          | S n', Some (_, b) => (1 + weight n' b)%N
          | _, _ => 0%N
          end
      | QSeq a b => (go a + (if nullable depth a then go b else 0) + 1)%N
      | QAlt a b => (go a + go b)%N
      | QOpt a | QNot a => go a
      | QStar a | QPlus a => (go a + 1)%N
      | _ => 0%N
      end.

  Fixpoint parts (x : qexp) : list qexp :=
    x :: match x with
         | QSeq a b | QAlt a b => parts a ++ parts b
         | QOpt a | QStar a | QNot a => parts a
         | QPlus a => QSeq a (QStar a) :: QStar a :: parts a
         | _ => []
         end.

  Definition checked (c : N) : bool :=
    forallb (fun r : qrule => forallb (fun y => safe depth y && (weight depth y <=? c)%N)
                                (QRef (fst r) :: parts (snd (snd r)))) G.
End Check.

(** The equations of these definitions. *)
Section Equations.
  Variable G : grammar.
  Variable d : nat.
  Lemma nullable_seq n a b : nullable G n (QSeq a b) = nullable G n a && nullable G n b.
  Proof. now destruct n. Qed.
  Lemma nullable_alt n a b : nullable G n (QAlt a b) = nullable G n a || nullable G n b.
  Proof. now destruct n. Qed.
  Lemma nullable_plus n a : nullable G n (QPlus a) = nullable G n a.
  Proof. now destruct n. Qed.
  Lemma safe_seq n a b : safe G d n (QSeq a b) = safe G d n a && (if nullable G d a then safe G d n b else true).
  Proof. now destruct n. Qed.
  Lemma safe_alt n a b : safe G d n (QAlt a b) = safe G d n a && safe G d n b.
  Proof. now destruct n. Qed.
  Lemma safe_opt n a : safe G d n (QOpt a) = safe G d n a.
  Proof. now destruct n. Qed.
  Lemma safe_not n a : safe G d n (QNot a) = safe G d n a.
  Proof. now destruct n. Qed.
  Lemma safe_star n a : safe G d n (QStar a) = safe G d n a && negb (nullable G d a).
  Proof. now destruct n. Qed.
  Lemma safe_plus n a : safe G d n (QPlus a) = safe G d n a && negb (nullable G d a).
  Proof. now destruct n. Qed.
  Lemma weight_seq n a b : weight G d n (QSeq a b) =
    (weight G d n a + (if nullable G d a then weight G d n b else 0) + 1)%N.
  Proof. now destruct n. Qed.
  Lemma weight_alt n a b : weight G d n (QAlt a b) = (weight G d n a + weight G d n b)%N.
  Proof. now destruct n. Qed.
  Lemma weight_opt n a : weight G d n (QOpt a) = weight G d n a.
  Proof. now destruct n. Qed.
  Lemma weight_not n a : weight G d n (QNot a) = weight G d n a.
  Proof. now destruct n. Qed.
  Lemma weight_star n a : weight G d n (QStar a) = (weight G d n a + 1)%N.
  Proof. now destruct n. Qed.
  Lemma weight_plus n a : weight G d n (QPlus a) = (weight G d n a + 1)%N.
  Proof. now destruct n. Qed.
End Equations.

Section Facts.
  Variable G : grammar.
  Variable depth : nat.
  Variable c : N.
  Hypothesis ok : checked G depth c = true.
  Notation nullable := (nullable G).
  Notation safe := (safe G depth).
  Notation weight := (weight G depth).

  Definition good (x : qexp) : Prop := Forall (fun y => safe depth y = true /\ (weight depth y <= c)%N) (parts x).

  Lemma good_self x : good x -> safe depth x = true /\ (weight depth x <= c)%N.
  Proof. intros H. unfold good in H. destruct x; cbn in H; inversion H; auto. Qed.
  Lemma good_rule n k x : lookup G n = Some (k, x) -> good x /\ good (QRef n).
  Proof.
    unfold checked in ok. rewrite forallb_forall in ok. intros E.
    assert (I : In (n, (k, x)) G).
    { clear ok. induction G as [|[m y] H IH]; [discriminate|]. cbn in E. destruct (String.eqb n m) eqn:Em.
      - apply String.eqb_eq in Em. injection E as <-. subst. now left.
      - right. auto. }
    specialize (ok _ I). cbn [fst snd] in ok. rewrite forallb_forall in ok.
    assert (A : forall y, In y (QRef n :: parts x) -> safe depth y = true /\ (weight depth y <= c)%N).
    { intros y Hy. specialize (ok _ Hy). apply andb_true_iff in ok as [A B]. now apply N.leb_le in B. }
    split; [apply Forall_forall; intros y Hy; apply A; now right|].
    constructor; [apply A; now left|constructor].
  Qed.
  Lemma good_seq a b : good (QSeq a b) -> good a /\ good b.
  Proof. intros H. inversion H as [|? ? _ H']; subst. now apply Forall_app in H'. Qed.
  Lemma good_alt a b : good (QAlt a b) -> good a /\ good b.
  Proof. intros H. inversion H as [|? ? _ H']; subst. now apply Forall_app in H'. Qed.
  Lemma good_opt a : good (QOpt a) -> good a.
  Proof. intros H. now inversion H. Qed.
  Lemma good_not a : good (QNot a) -> good a.
  Proof. intros H. now inversion H. Qed.
  Lemma good_star a : good (QStar a) -> good a.
  Proof. intros H. now inversion H. Qed.
  Lemma good_plus a : good (QPlus a) -> good a /\ good (QStar a) /\ good (QSeq a (QStar a)).
  Proof.
    intros H. inversion H as [|? ? _ H']; subst. inversion H' as [|? ? H0 H1']; subst.
    inversion H1' as [|? ? H1 H2]; subst. split; [exact H2|].
    assert (S : good (QStar a)) by now constructor.
    split; [exact S|]. constructor; [exact H0|]. apply Forall_app. now split.
  Qed.

  (** What is not nullable takes a character. *)
  Lemma takes_char w at_ x s o : derives G w at_ x s o -> forall n ts r, o = Some (ts, r) -> nullable n x = false ->
    length r < length s.
  Proof.
    induction 1; intros m vs z E Hn; try discriminate E; try (injection E as <- <-); cbn [length];
      try solve [destruct m; discriminate Hn]; try lia.
    - destruct t; [destruct m; discriminate|]. rewrite app_length. cbn. lia.
    - apply same_ci_len in H. destruct t; [destruct m; discriminate|]. destruct u; [discriminate|].
      rewrite app_length. cbn. lia.
    - destruct m as [|m]; [discriminate|]. cbn in Hn. rewrite H in Hn. eapply IHderives; eauto.
    - rewrite nullable_seq in Hn. apply derives_len in H, H0.
      apply andb_false_iff in Hn as [Hn|Hn]; [specialize (IHderives1 _ _ _ eq_refl Hn)|specialize (IHderives2 _ _ _ eq_refl Hn)]; lia.
    - rewrite nullable_alt in Hn. apply orb_false_iff in Hn as [Hn _]. eauto.
    - rewrite nullable_alt in Hn. apply orb_false_iff in Hn as [_ Hn]. eauto.
    - rewrite nullable_plus in Hn. eapply (IHderives m); eauto. rewrite nullable_seq, Hn. reflexivity.
  Qed.

  (** ** An answer for every input *)

  Lemma answers w : forall len n x at_ s, length s <= len -> good x -> safe n x = true -> exists o, derives G w at_ x s o.
  Proof.
    induction len as [len IHlen] using lt_wf_ind. induction n as [n IHn] using lt_wf_ind.
    assert (Later : forall x at_ s r ts y, length s <= len -> derives G w at_ y s (Some (ts, r)) -> nullable depth y = false ->
      good x -> exists o, derives G w at_ x r o).
    { intros x at_ s r ts y Hs D Hy Hx. pose proof (takes_char _ _ _ _ _ D _ _ _ eq_refl Hy).
      apply (IHlen (length r)) with (n := depth); auto; [lia|]. now apply good_self. }
    induction x; intros at_ s Hs Hx Hsafe.
    - destruct (strip_prefix t s) as [r|] eqn:E.
      + apply strip_prefix_spec in E. subst. eexists. constructor.
      + exists None. constructor. intros r ->. now rewrite strip_prefix_app in E.
    - destruct (list_eq_dec N.eq_dec (map to_lower (firstn (length t) s)) (map to_lower t)) as [E|E].
      + rewrite <- (firstn_skipn (length t) s). eexists. constructor. exact E.
      + exists None. constructor. intros u r Hu ->. apply E. pose proof (same_ci_len _ _ Hu) as El.
        rewrite <- El, firstn_app, Nat.sub_diag, firstn_all, firstn_O, app_nil_r. exact Hu.
    - destruct s; eexists; constructor.
    - destruct s as [|d s]; [exists None; constructor; discriminate|]. destruct (in_class l d) eqn:E.
      + eexists. now constructor.
      + exists None. constructor. now intros ? ? [= <- <-].
    - destruct (Nat.eq_dec (length s) (length w)); eexists; [now constructor|now apply d_soi_no].
    - destruct s; eexists; constructor.
    - destruct n as [|n]; [discriminate|]. cbn in Hsafe. destruct (lookup G r) as [[k b]|] eqn:El; [|discriminate].
      destruct (good_rule _ _ _ El) as [Hb _].
      destruct (IHn n (le_n _) b (within at_ k) s Hs Hb Hsafe) as [[[ts q]|] D].
      + destruct (derives_suffix _ _ _ _ _ _ D _ _ eq_refl) as [t E]. eexists. eapply d_ref; eauto.
      + exists None. eapply d_ref_no; eauto.
    - rewrite safe_seq in Hsafe. apply andb_true_iff in Hsafe as [Ha Hb]. apply good_seq in Hx as [Ga Gb].
      destruct (IHx1 at_ s Hs Ga Ha) as [[[ts r]|] D]; [|exists None; now apply d_seq_no1].
      assert (B : exists o, derives G w at_ x2 r o).
      { pose proof (derives_len _ _ _ _ _ _ _ D). destruct (nullable depth x1) eqn:En; [apply IHx2; auto; lia|eauto]. }
      destruct B as [[[us q]|] B]; eexists; [eapply d_seq; eauto|eapply d_seq_no2; eauto].
    - rewrite safe_alt in Hsafe. apply andb_true_iff in Hsafe as [Ha Hb]. apply good_alt in Hx as [Ga Gb].
      destruct (IHx1 at_ s Hs Ga Ha) as [[y|] D]; [eexists; apply d_alt_l; eauto|].
      destruct (IHx2 at_ s Hs Gb Hb) as [o B]. exists o. now apply d_alt_r.
    - rewrite safe_opt in Hsafe. apply good_opt in Hx. destruct (IHx at_ s Hs Hx Hsafe) as [[y|] D];
        eexists; [eapply d_opt|eapply d_opt_no]; eauto.
    - pose proof Hx as Gs. rewrite safe_star in Hsafe. apply andb_true_iff in Hsafe as [Ha Hb]. apply good_star in Hx.
      apply negb_true_iff in Hb. destruct (IHx at_ s Hs Hx Ha) as [[[ts r]|] D]; [|eexists; apply d_star_no; eauto].
      destruct (Later (QStar x) at_ s r ts x Hs D Hb Gs) as [o B]. pose proof B as B'. inversion B'; subst;
        eexists; eapply d_star; eauto.
    - rewrite safe_plus in Hsafe. apply andb_true_iff in Hsafe as [Ha Hb]. apply good_plus in Hx as (Gx & Gs & _).
      apply negb_true_iff in Hb. destruct (IHx at_ s Hs Gx Ha) as [[[ts r]|] D];
        [|exists None; apply d_plus; now apply d_seq_no1].
      destruct (Later (QStar x) at_ s r ts x Hs D Hb Gs) as [[[us q]|] B]; eexists; apply d_plus;
        [eapply d_seq; eauto|eapply d_seq_no2; eauto].
    - rewrite safe_not in Hsafe. apply good_not in Hx. destruct (IHx at_ s Hs Hx Hsafe) as [[y|] D];
        eexists; [eapply d_not_no|eapply d_not]; eauto.
  Qed.

  (** ** Depth *)

  Lemma depth_bound w at_ x s o d : nests G w at_ x s o d -> forall n, good x -> safe n x = true ->
    d <= n + depth * length s.
  Proof.
    assert (Later : forall a (r s : list N) b n q, nullable depth a = false -> length r < length s ->
      (forall n, good b -> safe n b = true -> q <= n + depth * length r) -> good b -> q <= n + depth * length s).
    { intros a r s' b n q _ Hl H Gb. specialize (H depth Gb (proj1 (good_self _ Gb))). nia. }
    induction 1; intros n' Gx Hs; try lia.
    - destruct n' as [|n']; [discriminate|]. cbn in Hs. rewrite H in Hs. destruct (good_rule _ _ _ H) as [Gb _].
      specialize (IHmeasured n' Gb Hs). lia.
    - destruct n' as [|n']; [discriminate|]. cbn in Hs. rewrite H in Hs. destruct (good_rule _ _ _ H) as [Gb _].
      specialize (IHmeasured n' Gb Hs). lia.
    - rewrite safe_seq in Hs. apply andb_true_iff in Hs as [Ha Hb]. apply good_seq in Gx as [Ga Gb].
      specialize (IHmeasured1 n' Ga Ha). apply enters_derives in H. pose proof (derives_len _ _ _ _ _ _ _ H).
      apply Nat.max_lub; [lia|]. destruct (nullable depth a) eqn:En.
      + specialize (IHmeasured2 n' Gb Hb). nia.
      + eapply (Later a r s b); eauto. eapply takes_char; eauto.
    - rewrite safe_seq in Hs. apply andb_true_iff in Hs as [Ha Hb]. apply good_seq in Gx as [Ga Gb]. auto.
    - rewrite safe_seq in Hs. apply andb_true_iff in Hs as [Ha Hb]. apply good_seq in Gx as [Ga Gb].
      specialize (IHmeasured1 n' Ga Ha). apply enters_derives in H. pose proof (derives_len _ _ _ _ _ _ _ H).
      apply Nat.max_lub; [lia|]. destruct (nullable depth a) eqn:En.
      + specialize (IHmeasured2 n' Gb Hb). nia.
      + eapply (Later a r s b); eauto. eapply takes_char; eauto.
    - rewrite safe_alt in Hs. apply andb_true_iff in Hs as [Ha Hb]. apply good_alt in Gx as [Ga Gb]. auto.
    - rewrite safe_alt in Hs. apply andb_true_iff in Hs as [Ha Hb]. apply good_alt in Gx as [Ga Gb].
      apply Nat.max_lub; auto.
    - rewrite safe_opt in Hs. apply good_opt in Gx. auto.
    - rewrite safe_opt in Hs. apply good_opt in Gx. auto.
    - pose proof Gx as Gs. rewrite safe_star in Hs. apply andb_true_iff in Hs as [Ha Hb]. apply good_star in Gx.
      apply negb_true_iff in Hb. apply Nat.max_lub; [auto|]. apply enters_derives in H.
      eapply (Later a r s (QStar a)); eauto. eapply takes_char; eauto.
    - rewrite safe_star in Hs. apply andb_true_iff in Hs as [Ha Hb]. apply good_star in Gx. auto.
    - apply good_plus in Gx as (Ga & Gs & Gq). rewrite safe_plus in Hs. apply andb_true_iff in Hs as [Ha Hb].
      apply negb_true_iff in Hb. apply IHmeasured; [exact Gq|]. now rewrite safe_seq, Ha, Hb.
    - rewrite safe_not in Hs. apply good_not in Gx. auto.
    - rewrite safe_not in Hs. apply good_not in Gx. auto.
  Qed.

  (** ** Work *)

  Definition base : nat := S (N.to_nat c).
  Lemma work_bound w at_ x s o m : enters G w at_ x s o m -> forall n, good x -> safe n x = true ->
    m <= N.to_nat (weight n x) * base ^ length s.
  Proof.
    assert (Pos : forall (s : list N), 1 <= base ^ length s).
    { intros s'. pose proof (Nat.pow_nonzero base (length s')). unfold base in *. lia. }
    assert (Later : forall (r s : list N) b q, length r < length s ->
      (forall n, good b -> safe n b = true -> q <= N.to_nat (weight n b) * base ^ length r) -> good b ->
      q <= base ^ length s).
    { intros r s' b q Hl H Gb. destruct (good_self _ Gb) as [Sb Wb]. specialize (H depth Gb Sb).
      assert (E : base ^ S (length r) <= base ^ length s') by (apply Nat.pow_le_mono_r; [discriminate|lia]).
      cbn [Nat.pow] in E. unfold base at 1 in E. assert (N.to_nat (weight depth b) <= N.to_nat c) by lia.
      specialize (Pos r). nia. }
    assert (Mono : forall (r s : list N), length r <= length s -> base ^ length r <= base ^ length s).
    { intros r s' Hl. apply Nat.pow_le_mono_r; [discriminate|exact Hl]. }
    induction 1; intros n' Gx Hs; try lia.
    - destruct n' as [|n']; [discriminate|]. cbn in Hs. cbn [StepsWell.weight]. rewrite H in *.
      destruct (good_rule _ _ _ H) as [Gb _]. specialize (IHmeasured n' Gb Hs). specialize (Pos s).
      rewrite N2Nat.inj_add. lia.
    - destruct n' as [|n']; [discriminate|]. cbn in Hs. cbn [StepsWell.weight]. rewrite H in *.
      destruct (good_rule _ _ _ H) as [Gb _]. specialize (IHmeasured n' Gb Hs). specialize (Pos s).
      rewrite N2Nat.inj_add. lia.
    - rewrite safe_seq in Hs. apply andb_true_iff in Hs as [Ha Hb]. apply good_seq in Gx as [Ga Gb].
      specialize (IHmeasured1 n' Ga Ha). apply enters_derives in H. pose proof (derives_len _ _ _ _ _ _ _ H) as Hl.
      rewrite weight_seq, !N2Nat.inj_add. change (N.to_nat 1) with 1. destruct (nullable depth a) eqn:En.
      + specialize (IHmeasured2 n' Gb Hb). specialize (Mono _ _ Hl). nia.
      + assert (m' <= base ^ length s) by (eapply (Later r); eauto; eapply takes_char; eauto). nia.
    - rewrite safe_seq in Hs. apply andb_true_iff in Hs as [Ha Hb]. apply good_seq in Gx as [Ga Gb].
      specialize (IHmeasured n' Ga Ha). rewrite weight_seq, !N2Nat.inj_add. nia.
    - rewrite safe_seq in Hs. apply andb_true_iff in Hs as [Ha Hb]. apply good_seq in Gx as [Ga Gb].
      specialize (IHmeasured1 n' Ga Ha). apply enters_derives in H. pose proof (derives_len _ _ _ _ _ _ _ H) as Hl.
      rewrite weight_seq, !N2Nat.inj_add. change (N.to_nat 1) with 1. destruct (nullable depth a) eqn:En.
      + specialize (IHmeasured2 n' Gb Hb). specialize (Mono _ _ Hl). nia.
      + assert (m' <= base ^ length s) by (eapply (Later r); eauto; eapply takes_char; eauto). nia.
    - rewrite safe_alt in Hs. apply andb_true_iff in Hs as [Ha Hb]. apply good_alt in Gx as [Ga Gb].
      specialize (IHmeasured n' Ga Ha). rewrite weight_alt, !N2Nat.inj_add. nia.
    - rewrite safe_alt in Hs. apply andb_true_iff in Hs as [Ha Hb]. apply good_alt in Gx as [Ga Gb].
      specialize (IHmeasured1 n' Ga Ha). specialize (IHmeasured2 n' Gb Hb). rewrite weight_alt, !N2Nat.inj_add. nia.
    - rewrite safe_opt in Hs. apply good_opt in Gx. rewrite weight_opt. auto.
    - rewrite safe_opt in Hs. apply good_opt in Gx. rewrite weight_opt. auto.
    - pose proof Gx as Gs. rewrite safe_star in Hs. apply andb_true_iff in Hs as [Ha Hb]. apply good_star in Gx.
      apply negb_true_iff in Hb. specialize (IHmeasured1 n' Gx Ha). apply enters_derives in H.
      rewrite weight_star, !N2Nat.inj_add. change (N.to_nat 1) with 1.
      assert (m' <= base ^ length s) by (eapply (Later r s (QStar a)); eauto; eapply takes_char; eauto). nia.
    - rewrite safe_star in Hs. apply andb_true_iff in Hs as [Ha Hb]. apply good_star in Gx.
      specialize (IHmeasured n' Gx Ha). rewrite weight_star, !N2Nat.inj_add. nia.
    - apply good_plus in Gx as (Ga & Gs & Gq). rewrite safe_plus in Hs. apply andb_true_iff in Hs as [Ha Hb].
      apply negb_true_iff in Hb. assert (Sq : safe n' (QSeq a (QStar a)) = true) by now rewrite safe_seq, Ha, Hb.
      specialize (IHmeasured n' Gq Sq). rewrite weight_seq, Hb, N.add_0_r in IHmeasured. now rewrite weight_plus.
    - rewrite safe_not in Hs. apply good_not in Gx. rewrite weight_not. auto.
    - rewrite safe_not in Hs. apply good_not in Gx. rewrite weight_not. auto.
  Qed.
End Facts.
