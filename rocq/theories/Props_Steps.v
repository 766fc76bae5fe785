(** C60: reading a line can take time exponential in its length. *)
From Coq Require Import String List NArith ZArith Bool Lia Arith.
From Verif Require Import Base BaseFacts Peg Names Out SimpleExt Anchors Types Literals Exprs ExtLines Registry RelGrammar
  SpecNames SpecLiterals SpecExprs LineView Plan Pest PestFacts PestText SpecGrammar GrammarFacts GrammarLines Props_Exprs Tests_Base SpecSteps StepsFacts StepsLines.
Import ListNotations.
Local Open Scope string_scope.
Local Open Scope list_scope.
Local Open Scope nat_scope.

(** ** The count *)

(** What matches is what can be counted, and it is counted in one way. *)
Theorem C60_counted G w at_ x s o :
  (derives G w at_ x s o <-> exists n, enters G w at_ x s o n)
  /\ (forall n m, enters G w at_ x s o n -> enters G w at_ x s o m -> n = m).
Proof.
  split; [split; [apply derives_enters|]|].
  - intros [n H]. eapply enters_derives, H.
  - intros n m H H'. eapply enters_unique; eauto.
Qed.

(** Every line has its count. *)
Theorem C60_every_line s : exists! n, rules_entered the_grammar "planNode" s n.
Proof.
  pose proof (rd_node s (S (length s)) s (le_n _)) as H.
  assert (E : exists o, derives the_grammar s false (QRef "planNode") s o).
  { destruct (g_node s) as [[a r]|]; [destruct H as (ts & D & _)|]; eauto. }
  destruct E as [o D]. destruct (derives_enters Nat.add _ _ _ _ _ _ D) as [n E]. exists n. split; [now exists o|].
  intros m (o' & E'). eapply enters_unique; eauto.
Qed.

(** Factoring changes nothing about what matches and enters no more rules. *)
Theorem C60_factored G w at_ x s o n : enters G w at_ x s o n ->
  derives (factored G) w at_ x s o /\ exists m, m <= n /\ enters (factored G) w at_ x s o m.
Proof.
  intros H. split; [|now apply enters_factored]. eapply derives_factored, enters_derives, H.
Qed.

(** ** Doubling *)

(** The grammar as in the file or as pest makes it. *)
Definition read_with (G : grammar) : Prop := G = the_grammar \/ G = factored the_grammar.

Lemma read_with_sub G : read_with G -> forall w at_ x s o, derives the_grammar w at_ x s o -> derives G w at_ x s o.
Proof. intros [-> | ->] w at_ x s o H; [exact H|now apply derives_factored]. Qed.
Lemma read_with_same G : read_with G -> forall nm, In nm doubling_rules -> lookup G nm = lookup the_grammar nm.
Proof.
  intros [-> | ->]; [reflexivity|]. apply Forall_forall. unfold doubling_rules.
  repeat (apply Forall_cons; [vm_compute; reflexivity|]). apply Forall_nil.
Qed.

Lemma takes_entered G rule s o m n : takes G s false (QRef rule) s o m -> rules_entered G rule s n -> m <= n.
Proof. intros (k & H & L) (o' & H'). destruct (enters_unique _ _ _ _ _ _ _ _ H _ _ H') as [_ <-]. exact L. Qed.
Lemma takes_entered_some G rule s o m : takes G s false (QRef rule) s o m -> exists n, rules_entered G rule s n.
Proof. intros (k & H & L). exists k, o. exact H. Qed.

Lemma calls_length k : length (calls_text k) = 13 * k + 1.
Proof.
  induction k as [|k IH]; [reflexivity|]. cbn [calls_text]. rewrite !app_length.
  change (length (L "if_then(")) with 8. change (length (L "):i64")) with 5. lia.
Qed.
Lemma lists_length k : length (open_lists k) = 5 * k.
Proof.
  induction k as [|k IH]; [reflexivity|]. cbn [open_lists]. rewrite !app_length.
  change (length (L "list<")) with 5. lia.
Qed.

(** A projection of nested calls is read to its end, and every level doubles the work. *)
Theorem C60_calls G k : read_with G ->
  length (calls_line k) = 13 * k + 10
  /\ (exists t, matches G "planNode" (calls_line k) t [])
  /\ (exists n, rules_entered G "planNode" (calls_line k) n)
  /\ (forall n, rules_entered G "planNode" (calls_line k) n -> 2 ^ k <= n).
Proof.
  intros HG.
  destruct (calls_line_takes G (read_with_sub _ HG) (read_with_same _ HG) (calls_line k) k) as (ts & H).
  split; [|split; [|split]].
  - unfold calls_line. rewrite !app_length. change (length (L "Project[")) with 8. change (length (L "]")) with 1.
    rewrite calls_length. lia.
  - pose proof (takes_derives _ _ _ _ _ _ _ H) as D. inversion D; subst.
    match goal with E : lookup G "planNode" = _ |- _ =>
      rewrite (read_with_same _ HG) in E by (cbn; tauto); vm_compute in E; injection E as <- <- end.
    eexists. unfold matches. exact D.
  - eapply takes_entered_some, H.
  - intros n. eapply takes_entered, H.
Qed.

(** A read whose column type is never closed is refused, and every level doubles the work. *)
Theorem C60_lists G k : read_with G ->
  length (lists_line k) = 5 * k + 12
  /\ rejects G "planNode" (lists_line k)
  /\ (exists n, rules_entered G "planNode" (lists_line k) n)
  /\ (forall n, rules_entered G "planNode" (lists_line k) n -> 2 ^ k <= n).
Proof.
  intros HG.
  pose proof (lists_line_takes G (read_with_sub _ HG) (read_with_same _ HG) (lists_line k) k) as H.
  split; [|split; [|split]].
  - unfold lists_line. rewrite !app_length. change (length (L "Read[t => a:")) with 12.
    rewrite lists_length. lia.
  - eapply takes_derives, H.
  - eapply takes_entered_some, H.
  - intros n. eapply takes_entered, H.
Qed.

(** No polynomial in the length of the line bounds the work, neither for lines that are read
    nor for lines that are refused. *)
Theorem C60_polynomial_refuted G c d : read_with G ->
  (exists s t n, matches G "planNode" s t [] /\ rules_entered G "planNode" s n /\ c * length s ^ d < n)
  /\ (exists s n, rejects G "planNode" s /\ rules_entered G "planNode" s n /\ c * length s ^ d < n).
Proof.
  intros HG. split.
  - destruct (power_wins c d 13 10) as [k Hk]. destruct (C60_calls G k HG) as (El & (t & M) & (n & E) & B).
    exists (calls_line k), t, n. split; [exact M|]. split; [exact E|]. rewrite El. specialize (B n E). lia.
  - destruct (power_wins c d 5 12) as [k Hk]. destruct (C60_lists G k HG) as (El & M & (n & E) & B).
    exists (lists_line k), n. split; [exact M|]. split; [exact E|]. rewrite El. specialize (B n E). lia.
Qed.

(** ** The texts are the crate's own *)

(** Calls of a function named [if_then], one within the other. *)
Fixpoint calls (k : nat) : pexpr :=
  match k with
  | 0 => ELit (mk_lit (Some (LI64 1)) false 0)
  | S k' => EFunc 1 [AValue (calls k')] [] (Some (TSimple SI64 NRequired 0))
  end.
Section Written.
  Context `{U : Unicode} `{F : Floats}.

  (** They are written as above, and they are among the expressions that are read back
      (C03_expression_round_trip). *)
  Theorem C60_written k :
    o_text (expr_out opts_default if_exts (calls k)) = calls_text k
    /\ o_errs (expr_out opts_default if_exts (calls k)) = []
    /\ expr_ok if_exts (calls k) = true /\ expr_clean (calls k) = true.
  Proof.
    assert (R : ref_out opts_default if_exts KFunction 1 = txt (L "if_then")) by (vm_compute; reflexivity).
    assert (O : output_type_out opts_default if_exts (Some (TSimple SI64 NRequired 0)) = txt (L ":i64")) by (vm_compute; reflexivity).
    assert (Q : forall x t, expr_out opts_default if_exts (EFunc 1 [AValue x] [] t) =
      invocation_out opts_default if_exts 1 [expr_out opts_default if_exts x] [] +++ output_type_out opts_default if_exts t)
      by reflexivity.
    induction k as [|k (T & E & K & C)]; [repeat split|]. cbn [calls calls_text]. split; [|split; [|split]].
    - rewrite Q. unfold invocation_out. rewrite R, O. revert T.
      generalize (expr_out opts_default if_exts (calls k)). intros X <-. cbn. rewrite ?app_nil_r, <- ?app_assoc. reflexivity.
    - rewrite Q. unfold invocation_out. rewrite R, O. revert E.
      generalize (expr_out opts_default if_exts (calls k)). intros X E. cbn. now rewrite E.
    - cbn [expr_ok forallb]. rewrite K. reflexivity.
    - cbn [expr_clean forallb]. rewrite C. reflexivity.
  Qed.
End Written.

(** ** Examples *)

(** The only rule that factoring changes is the one for tuples. *)
Example ex_factored : map fst (filter (fun r : qrule =>
    if qexp_eq_dec (snd (snd r)) (factor (snd (snd r))) then false else true) the_grammar) = ["tuple"].
Proof. vm_compute. reflexivity. Qed.

(** Three levels of each. *)
Example ex_calls : calls_line 3 = L "Project[if_then(if_then(if_then(1):i64):i64):i64]".
Proof. reflexivity. Qed.
Example ex_lists : lists_line 3 = L "Read[t => a:list<list<list<".
Proof. reflexivity. Qed.

(** A line of 212 characters that enters more than a million million rules before it is refused. *)
Example ex_forty : length (lists_line 40) = 212
  /\ forall n, rules_entered (factored the_grammar) "planNode" (lists_line 40) n -> (1000000000000 < N.of_nat n)%N.
Proof.
  destruct (C60_lists (factored the_grammar) 40 (or_intror eq_refl)) as (E & _ & _ & B).
  split; [exact E|]. intros n H. specialize (B n H).
  assert (P : N.of_nat (2 ^ 40) = (2 ^ 40)%N) by (rewrite Nat2N.inj_pow; reflexivity).
  apply N.lt_le_trans with (2 ^ 40)%N; [reflexivity|]. rewrite <- P. generalize dependent (2 ^ 40). intros p HB _. lia.
Qed.

(** A whole plan with nested calls: it is read, and is the plan that was written. *)
#[local] Existing Instance ascii_tables.
#[local] Existing Instance toy_floats.
Definition calls_plan_text (k : nat) : list N := unl (map L [
    "=== Extensions";
    "URNs:";
    "  @  1: urn:a";
    "Functions:";
    "  #  1 @  1: if_then";
    "";
    "=== Plan"] ++ [calls_line k; L "  Read[t => a:i64]"]).
Example ex_plan :
  match parse registry_new (calls_plan_text 3) with
  | Ok p => o_text (format registry_new opts_default p) = calls_plan_text 3
  | _ => False
  end.
Proof. vm_compute. reflexivity. Qed.
