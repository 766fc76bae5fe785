(** C61: reading ends; how deep rules nest is linear in the length of the text, how many are
    entered at most exponential, and neither can be bounded by a constant. *)
From Coq Require Import String List NArith ZArith Bool Lia Arith.
From Verif Require Import Base BaseFacts Peg Names Out Anchors Types Literals Exprs SpecNames SpecLiterals SpecExprs Pest PestFacts PestText
  SpecGrammar GrammarFacts Props_Exprs SpecSteps StepsFacts StepsWell StepsDeep Props_Steps.
Import ListNotations.
Local Open Scope string_scope.
Local Open Scope list_scope.
Local Open Scope nat_scope.

(** The two grammars pass the check. *)
Lemma read_with_checked G : read_with G -> checked G 8 75 = true.
Proof. intros [-> | ->]; vm_compute; reflexivity. Qed.
Lemma rule_good G n k x : read_with G -> lookup G n = Some (k, x) ->
  good G 8 75 (QRef n) /\ safe G 8 8 (QRef n) = true /\ (weight G 8 8 (QRef n) <= 75)%N.
Proof.
  intros HG E. destruct (good_rule G 8 75 (read_with_checked _ HG) _ _ _ E) as [_ H].
  split; [exact H|]. exact (good_self _ _ _ _ H).
Qed.

(** ** Bounds *)

(** Every rule gives one answer on every text, in every place of it. *)
Theorem C61_answers G n w at_ s : read_with G -> lookup G n <> None ->
  exists! o, derives G w at_ (QRef n) s o.
Proof.
  intros HG E. destruct (lookup G n) as [[k x]|] eqn:El; [|easy].
  destruct (rule_good G n k x HG El) as (Hg & Hs & _).
  destruct (answers G 8 75 (read_with_checked _ HG) w (length s) 8 (QRef n) at_ s (le_n _) Hg Hs) as [o D].
  exists o. split; [exact D|]. intros o' D'. eapply derives_unique; eauto.
Qed.

(** Rules nest at most eight deep per character. *)
Theorem C61_depth G n s : read_with G -> lookup G n <> None ->
  (exists! d, rules_nested G n s d) /\ (forall d, rules_nested G n s d -> d <= 8 * (length s + 1)).
Proof.
  intros HG E. destruct (C61_answers G n s false s HG E) as (o & D & _).
  destruct (lookup G n) as [[k x]|] eqn:El; [|easy].
  destruct (rule_good G n k x HG El) as (Hg & Hs & _).
  destruct (derives_enters Nat.max _ _ _ _ _ _ D) as [d H]. split.
  - exists d. split; [now exists o|]. intros d' (o' & H'). now destruct (enters_unique _ _ _ _ _ _ _ _ H _ _ H').
  - intros d' (o' & H'). pose proof (depth_bound G 8 75 (read_with_checked _ HG) _ _ _ _ _ _ H' 8 Hg Hs). lia.
Qed.

(** The work is at most exponential. *)
Theorem C61_work G n s : read_with G -> lookup G n <> None ->
  (exists! m, rules_entered G n s m) /\ (forall m, rules_entered G n s m -> m <= 76 ^ (length s + 1)).
Proof.
  intros HG E. destruct (C61_answers G n s false s HG E) as (o & D & _).
  destruct (lookup G n) as [[k x]|] eqn:El; [|easy].
  destruct (rule_good G n k x HG El) as (Hg & Hs & Hw).
  destruct (derives_enters Nat.add _ _ _ _ _ _ D) as [m H]. split.
  - exists m. split; [now exists o|]. intros m' (o' & H'). now destruct (enters_unique _ _ _ _ _ _ _ _ H _ _ H').
  - intros m' (o' & H'). pose proof (work_bound G 8 75 (read_with_checked _ HG) _ _ _ _ _ _ H' 8 Hg Hs) as B.
    change (base 75) with 76 in B. rewrite Nat.add_comm. cbn [Nat.add]. rewrite Nat.pow_succ_r'.
    eapply Nat.le_trans; [exact B|]. apply Nat.mul_le_mono_r.
    assert (T : N.to_nat 75 = 75) by reflexivity. lia.
Qed.

(** ** Nesting without bound *)

Lemma casts_length k : length (casts_text k) = 7 * k + 1.
Proof.
  induction k as [|k IH]; [reflexivity|]. cbn [casts_text]. rewrite !app_length.
  change (length (L "(")) with 1. change (length (L ")::i64")) with 6. lia.
Qed.
Lemma nesting_same G : read_with G -> forall nm, In nm nesting_rules -> lookup G nm = lookup the_grammar nm.
Proof.
  intros [-> | ->]; [reflexivity|]. apply Forall_forall. unfold nesting_rules.
  repeat (apply Forall_cons; [vm_compute; reflexivity|]). apply Forall_nil.
Qed.

(** A projection of nested casts is read to its end and nests two rules for every cast. *)
Theorem C61_casts G k : read_with G ->
  length (casts_line k) = 7 * k + 10
  /\ (exists t, matches G "planNode" (casts_line k) t [])
  /\ (exists d, rules_nested G "planNode" (casts_line k) d)
  /\ (forall d, rules_nested G "planNode" (casts_line k) d -> 2 * k <= d).
Proof.
  intros HG.
  destruct (casts_line_nests G (read_with_sub _ HG) (nesting_same _ HG) (casts_line k) k) as (ts & H).
  split; [|split; [|split]].
  - unfold casts_line. rewrite !app_length. change (length (L "Project[")) with 8. change (length (L "]")) with 1.
    rewrite casts_length. lia.
  - pose proof (n_derives _ _ _ _ _ _ H) as D. inversion D; subst.
    match goal with E : lookup G "planNode" = _ |- _ =>
      rewrite (nesting_same _ HG) in E by (cbn; tauto); vm_compute in E; injection E as <- <- end.
    eexists. unfold matches. exact D.
  - destruct H as (d & H & _). now exists d, (Some (ts, [])).
  - intros d (o' & H'). destruct H as (d' & H & B). destruct (enters_unique _ _ _ _ _ _ _ _ H _ _ H') as [_ <-]. exact B.
Qed.

(** No constant bounds the nesting of the lines that are read. *)
Theorem C61_constant_refuted G c : read_with G ->
  exists s t d, matches G "planNode" s t [] /\ rules_nested G "planNode" s d /\ c < d.
Proof.
  intros HG. destruct (C61_casts G (S c) HG) as (_ & (t & M) & (d & N) & B).
  exists (casts_line (S c)), t, d. specialize (B d N). repeat split; auto. lia.
Qed.

(** ** The texts are the crate's own *)

Fixpoint casts (k : nat) : pexpr :=
  match k with
  | 0 => ELit (mk_lit (Some (LI64 1)) false 0)
  | S k' => ECast 0 (Some (casts k')) (Some (TSimple SI64 NRequired 0))
  end.
Section Written.
  Context `{U : Unicode} `{F : Floats}.

  (** They are written as above, and they are among the expressions that are read back
      (C03_expression_round_trip). *)
  Theorem C61_written k :
    o_text (expr_out opts_default if_exts (casts k)) = casts_text k
    /\ o_errs (expr_out opts_default if_exts (casts k)) = []
    /\ expr_ok if_exts (casts k) = true /\ expr_clean (casts k) = true.
  Proof.
    assert (T : type_out opts_default if_exts (TSimple SI64 NRequired 0) = txt (L "i64")) by (vm_compute; reflexivity).
    assert (Q : forall x, expr_out opts_default if_exts (ECast 0 (Some x) (Some (TSimple SI64 NRequired 0))) =
      txt (L "(") +++ expr_out opts_default if_exts x +++ txt (L ")::") +++ behavior_out 0 +++ txt (L "i64")) by (intros x; rewrite <- T; reflexivity).
    induction k as [|k (X & E & K & C)]; [repeat split|]. cbn [casts casts_text]. split; [|split; [|split]].
    - rewrite Q. revert X. generalize (expr_out opts_default if_exts (casts k)). intros Y <-. cbn.
      rewrite ?app_nil_r, <- ?app_assoc. reflexivity.
    - rewrite Q. revert E. generalize (expr_out opts_default if_exts (casts k)). intros Y E. cbn. now rewrite E.
    - cbn [expr_ok]. rewrite K. reflexivity.
    - cbn [expr_clean]. rewrite C. reflexivity.
  Qed.
End Written.

(** ** Examples *)

Example ex_casts : casts_line 3 = L "Project[(((1)::i64)::i64)::i64]".
Proof. reflexivity. Qed.

(** There are 116 rules; all of them give an answer on any text, such as a letter followed by an open bracket. *)
Example ex_answers : Forall (fun r : qrule => exists! o, derives the_grammar [955%N; 40%N] false (QRef (fst r)) [955%N; 40%N] o) the_grammar.
Proof.
  apply Forall_forall. intros r Hr. apply C61_answers; [now left|].
  assert (A : forallb (fun r : qrule => match lookup the_grammar (fst r) with Some _ => true | None => false end) the_grammar = true)
    by (vm_compute; reflexivity).
  rewrite forallb_forall in A. specialize (A r Hr). now destruct (lookup the_grammar (fst r)).
Qed.

(** Where the check fails: a rule that begins with itself gives no answer at all. *)
Definition looping : grammar := [("e", (QNormal, QAlt (QSeq (QRef "e") (QTok [43%N])) (QTok [49%N])))].
Example ex_looping : (forall d c, checked looping d c = false)
  /\ forall w at_ s o, ~ derives looping w at_ (QRef "e") s o.
Proof.
  split.
  - intros d c. assert (S : forall n, safe looping d n (QRef "e") = false).
    { induction n as [|n IH]; [reflexivity|]. change (safe looping d (S n) (QRef "e")) with
        (safe looping d n (QAlt (QSeq (QRef "e") (QTok [43%N])) (QTok [49%N]))).
      rewrite safe_alt, safe_seq, IH. reflexivity. }
    unfold checked. cbn [looping forallb fst]. rewrite S. reflexivity.
  - assert (A : forall w at_ x s o n, enters looping w at_ x s o n -> x = QRef "e" -> False).
    { intros w at_ x s o n. revert at_ x s o. induction n as [n IH] using lt_wf_ind. intros at_ x s o H ->.
      assert (B : exists at' o' m, enters looping w at' (QAlt (QSeq (QRef "e") (QTok [43%N])) (QTok [49%N])) s o' m /\ m < n).
      { inversion H; subst; match goal with E : lookup _ _ = _ |- _ => vm_compute in E; injection E as <- <- end; eauto 6. }
      destruct B as (at' & o' & m & B & Lt).
      assert (C : exists o2 m2, enters looping w at' (QSeq (QRef "e") (QTok [43%N])) s o2 m2 /\ m2 <= m).
      { inversion B; subst; eexists _, _; (split; [eassumption|lia]). }
      destruct C as (o2 & m2 & C & Le).
      assert (D : exists o3 m3, enters looping w at' (QRef "e") s o3 m3 /\ m3 <= m2).
      { inversion C; subst; eexists _, _; (split; [eassumption|lia]). }
      destruct D as (o3 & m3 & D & Le'). eapply (IH m3); [lia|exact D|reflexivity]. }
    intros w at_ s o H. destruct (derives_enters Nat.add _ _ _ _ _ _ H) as [n E]. eapply A; eauto.
Qed.
