(** Counting rules: general facts. *)
From Coq Require Import String List NArith Bool Lia Arith.
From Verif Require Import Base BaseFacts Pest PestFacts SpecSteps.
Import ListNotations.
Local Open Scope string_scope.
Local Open Scope list_scope.
Local Open Scope nat_scope.

(** ** One count for each derivation *)

Lemma enters_derives j G w at_ x s o n : measured j G w at_ x s o n -> derives G w at_ x s o.
Proof.
  induction 1; solve [econstructor; eauto | eapply d_alt_r; eauto].
Qed.

Lemma derives_enters j G w at_ x s o : derives G w at_ x s o -> exists n, measured j G w at_ x s o n.
Proof.
  induction 1;
    repeat match goal with H : exists n, measured _ _ _ _ _ _ _ n |- _ => destruct H as [? ?] end;
    eexists; solve [econstructor; eauto | eapply e_alt_r; eauto].
Qed.

Lemma enters_unique j G w at_ x s o n : measured j G w at_ x s o n ->
  forall o' n', measured j G w at_ x s o' n' -> o = o' /\ n = n'.
Proof.
  induction 1; intros o' n' D;
    (assert (O : derives G w at_ _ _ o') by (eapply enters_derives; exact D));
    (match goal with H : derives _ _ _ ?x ?s o' |- ?o = o' /\ _ =>
       assert (E : o = o') by (eapply derives_unique; [|exact H];
         solve [econstructor; eauto using enters_derives | eapply d_alt_r; eauto using enters_derives]) end);
    clear O; (split; [exact E|]); subst o'; inversion D; subst; try reflexivity;
    repeat match goal with
      | H1 : lookup _ _ = Some _, H2 : lookup _ _ = Some _ |- _ =>
          rewrite H1 in H2; injection H2 as <- <-
      | IH : forall o' n', measured _ _ _ ?a ?x ?s o' n' -> _, H : measured _ _ _ ?a ?x ?s _ _ |- _ =>
          let E := fresh "E" in let F := fresh "F" in destruct (IH _ _ H) as [E F]; clear H;
          first [discriminate E | injection E as ? ?; subst | subst | clear E]
      end; try reflexivity; try lia.
Qed.

(** ** Factoring *)

(** [y] does what [x] does and enters no more rules. *)
Definition refines (G : grammar) (x y : qexp) : Prop :=
  forall w at_ s o n, enters G w at_ x s o n -> exists m, m <= n /\ enters G w at_ y s o m.

Section Refines.
  Variable G : grammar.

  Lemma refines_refl x : refines G x x.
  Proof. intros w at_ s o n H. eauto. Qed.
  Lemma refines_trans x y z : refines G x y -> refines G y z -> refines G x z.
  Proof.
    intros A B w at_ s o n H. destruct (A _ _ _ _ _ H) as (m & Hm & H1). destruct (B _ _ _ _ _ H1) as (k & Hk & H2).
    exists k. split; [lia|auto].
  Qed.

  Ltac use_ref :=
    repeat match goal with
      | R : refines G ?x _, H : enters G _ _ ?x _ _ _ |- _ =>
          apply R in H; let m := fresh "m" in let L := fresh "L" in destruct H as (m & L & H)
      end.
  Ltac done := eexists; split; [|solve [econstructor; eauto | eapply e_alt_r; eauto]]; lia.

  Lemma refines_seq a b a' b' : refines G a a' -> refines G b b' -> refines G (QSeq a b) (QSeq a' b').
  Proof. intros A B w at_ s o n H. inversion H; subst; use_ref; done. Qed.
  Lemma refines_alt a b a' b' : refines G a a' -> refines G b b' -> refines G (QAlt a b) (QAlt a' b').
  Proof. intros A B w at_ s o n H. inversion H; subst; use_ref; done. Qed.
  Lemma refines_opt a a' : refines G a a' -> refines G (QOpt a) (QOpt a').
  Proof. intros A w at_ s o n H. inversion H; subst; use_ref; done. Qed.
  Lemma refines_not a a' : refines G a a' -> refines G (QNot a) (QNot a').
  Proof. intros A w at_ s o n H. inversion H; subst; use_ref; done. Qed.
  Lemma refines_star a a' : refines G a a' -> refines G (QStar a) (QStar a').
  Proof.
    intros A w at_ s o n H. remember (QStar a) as x eqn:E. revert E.
    induction H; intros E; try discriminate; injection E as ->.
    - destruct (IHmeasured2 eq_refl) as (k & Hk & H2). use_ref. done.
    - use_ref. done.
  Qed.
  Lemma refines_plus a a' : refines G a a' -> refines G (QPlus a) (QPlus a').
  Proof.
    intros A w at_ s o n H. inversion H; subst.
    match goal with H : enters _ _ _ (QSeq _ _) _ _ _ |- _ =>
      apply (refines_seq _ _ _ _ A (refines_star _ _ A)) in H; destruct H as (m & Hm & H) end.
    done.
  Qed.

  Ltac same_start :=
    repeat match goal with
      | H : enters _ _ _ (QSeq _ _) _ _ _ |- _ => inversion H; clear H; subst
      | H1 : enters _ _ ?a ?x ?s ?o ?n, H2 : enters _ _ ?a ?x ?s ?o' ?m |- _ =>
          assert_fails (constr_eq H1 H2);
          let E := fresh "E" in let F := fresh "F" in
          destruct (enters_unique _ _ _ _ _ _ _ _ H1 _ _ H2) as [E F]; clear H2;
          first [discriminate E | injection E as ? ?; subst | subst]
      end.

  (** Alternatives that begin alike. *)
  Lemma refines_factor a b c : refines G (QAlt (QSeq a b) (QSeq a c)) (QSeq a (QAlt b c)).
  Proof.
    intros w at_ s o n H. inversion H; subst; same_start;
      try (eexists; split; [|solve [eapply e_seq_no1; eauto | eapply e_seq; [eauto|eapply e_alt_l; eauto]
        | eapply e_seq; [eauto|eapply e_alt_r; eauto] | eapply e_seq_no2; [eauto|eapply e_alt_r; eauto]]]; lia).
  Qed.
  Lemma refines_factor_opt a b : refines G (QAlt (QSeq a b) a) (QSeq a (QOpt b)).
  Proof.
    intros w at_ s o n H. inversion H; subst; same_start.
    - eexists. split; [|eapply e_seq; [eauto|eapply e_opt; eauto]]. lia.
    - eexists. split; [|eapply e_seq_no1; eauto]. lia.
    - eexists. split; [|rewrite <- (app_nil_r ts); eapply e_seq; [eauto|eapply e_opt_no; eauto]]. lia.
  Qed.
  Lemma refines_shadow a b : refines G (QAlt a (QSeq a b)) a.
  Proof.
    intros w at_ s o n H. inversion H; subst; same_start; eexists; (split; [|eauto]); lia.
  Qed.

  Lemma refines_top x : refines G x (factor_top x).
  Proof.
    destruct x; try apply refines_refl. unfold factor_top.
    destruct x1; try apply refines_refl;
      destruct x2; try apply refines_refl;
      match goal with |- context [if ?d then _ else _] => destruct d as [e|]; [|apply refines_refl] end;
      try (rewrite <- e); try (rewrite e);
      first [apply refines_factor|apply refines_factor_opt|apply refines_shadow].
  Qed.
  Lemma refines_factor_n n : forall x, refines G x (factor_n n x).
  Proof.
    induction n as [|n IH]; intros x; [apply refines_refl|]. cbn [factor_n].
    eapply refines_trans; [apply refines_top|]. destruct (factor_top x); try apply refines_refl;
      auto using refines_seq, refines_alt, refines_opt, refines_star, refines_plus, refines_not.
  Qed.
End Refines.

Lemma lookup_factored G n : lookup (factored G) n =
  match lookup G n with Some (k, x) => Some (k, factor x) | None => None end.
Proof.
  induction G as [|[m [k x]] G IH]; [reflexivity|]. cbn [factored map fst snd lookup].
  destruct (String.eqb n m); auto.
Qed.

Lemma enters_factored G w at_ x s o n : enters G w at_ x s o n ->
  exists m, m <= n /\ enters (factored G) w at_ x s o m.
Proof.
  induction 1;
    repeat match goal with
      | H : exists m, m <= _ /\ enters _ _ _ _ _ _ m |- _ =>
          let m := fresh "m" in let L := fresh "L" in let F := fresh "F" in destruct H as (m & L & F)
      end;
    try solve [eexists; split; [|solve [econstructor; eauto | eapply e_alt_r; eauto]]; lia].
  - apply (refines_factor_n _ (size x)) in F. destruct F as (p & Lp & F). exists (S p). split; [lia|].
    eapply e_ref; eauto. now rewrite lookup_factored, H.
  - apply (refines_factor_n _ (size x)) in F. destruct F as (p & Lp & F). exists (S p). split; [lia|].
    eapply e_ref_no; eauto. now rewrite lookup_factored, H.
Qed.
Lemma derives_factored G w at_ x s o : derives G w at_ x s o -> derives (factored G) w at_ x s o.
Proof.
  intros H. apply (derives_enters Nat.add) in H as [n H]. apply enters_factored in H as (m & _ & H).
  eapply enters_derives, H.
Qed.

(** ** Lower bounds *)

(** [x] takes [s] as [o] and enters at least [m] rules. *)
Definition takes G w at_ x s o m : Prop := exists n, enters G w at_ x s o n /\ m <= n.

Section Takes.
  Variable G : grammar.
  Variable w : list N.
  Notation takes := (takes G w).

  Lemma takes_some at_ x s o : derives G w at_ x s o -> takes at_ x s o 0.
  Proof. intros H. apply (derives_enters Nat.add) in H as [n H]. exists n. split; [auto|lia]. Qed.
  Lemma takes_le at_ x s o m k : takes at_ x s o m -> k <= m -> takes at_ x s o k.
  Proof. intros (n & H & L) Hk. exists n. split; [auto|lia]. Qed.
  Lemma takes_derives at_ x s o m : takes at_ x s o m -> derives G w at_ x s o.
  Proof. intros (n & H & L). eapply enters_derives, H. Qed.
  Lemma takes_call at_ nm s o : derives G w at_ (QRef nm) s o -> takes at_ (QRef nm) s o 1.
  Proof. intros H. apply (derives_enters Nat.add) in H as [n H]. exists n. split; [auto|]. inversion H; lia. Qed.

  Ltac go := repeat match goal with H : takes _ _ _ _ _ |- _ => destruct H as (? & ? & ?) end;
    eexists; split; [solve [econstructor; eauto | eapply e_alt_r; eauto]|lia].
  Lemma takes_ref at_ nm k x s text ts r m : lookup G nm = Some (k, x) ->
    takes (within at_ k) x s (Some (ts, r)) m -> s = text ++ r ->
    takes at_ (QRef nm) s (Some (wrap at_ k nm text ts, r)) m.
  Proof. intros. go. Qed.
  Lemma takes_ref_no at_ nm k x s m : lookup G nm = Some (k, x) ->
    takes (within at_ k) x s None m -> takes at_ (QRef nm) s None m.
  Proof. intros. go. Qed.
  Lemma takes_seq at_ a b s ts r us q m m' :
    takes at_ a s (Some (ts, r)) m -> takes at_ b r (Some (us, q)) m' ->
    takes at_ (QSeq a b) s (Some (ts ++ us, q)) (m + m').
  Proof. intros. go. Qed.
  Lemma takes_seq_no1 at_ a b s m : takes at_ a s None m -> takes at_ (QSeq a b) s None m.
  Proof. intros. go. Qed.
  Lemma takes_seq_no2 at_ a b s ts r m m' :
    takes at_ a s (Some (ts, r)) m -> takes at_ b r None m' -> takes at_ (QSeq a b) s None (m + m').
  Proof. intros. go. Qed.
  Lemma takes_alt_l at_ a b s x m : takes at_ a s (Some x) m -> takes at_ (QAlt a b) s (Some x) m.
  Proof. intros. go. Qed.
  Lemma takes_alt_r at_ a b s o m m' :
    takes at_ a s None m -> takes at_ b s o m' -> takes at_ (QAlt a b) s o (m + m').
  Proof. intros. go. Qed.
  Lemma takes_opt at_ a s x m : takes at_ a s (Some x) m -> takes at_ (QOpt a) s (Some x) m.
  Proof. intros. go. Qed.
  Lemma takes_opt_no at_ a s m : takes at_ a s None m -> takes at_ (QOpt a) s (Some ([], s)) m.
  Proof. intros. go. Qed.
  Lemma takes_plus_no at_ a s m : takes at_ a s None m -> takes at_ (QPlus a) s None m.
  Proof. intros (n & H & L). exists n. split; [|auto]. apply e_plus. now apply e_seq_no1. Qed.
End Takes.

(** Powers of two against polynomials. *)
Lemma below_power m : m < 2 ^ m.
Proof. induction m as [|m IH]; cbn; lia. Qed.
Lemma power_wins c d a b : exists k, c * (a * k + b) ^ d < 2 ^ k.
Proof.
  assert (exists C, C = c * (a * S d + b) ^ d) as [C EC] by eauto. exists (S d * C).
  assert (A : a * (S d * C) + b <= (a * S d + b) * (C + 1)) by nia.
  assert (B : (a * (S d * C) + b) ^ d <= (a * S d + b) ^ d * (C + 1) ^ d).
  { rewrite <- Nat.pow_mul_l. apply Nat.pow_le_mono_l. exact A. }
  assert (D : (C + 1) ^ d <= 2 ^ (C * d)).
  { rewrite Nat.pow_mul_r. apply Nat.pow_le_mono_l. pose proof (below_power C). lia. }
  replace (S d * C) with (C * d + C) in * by lia. rewrite Nat.pow_add_r.
  apply Nat.le_lt_trans with (C * 2 ^ (C * d)).
  - transitivity (c * (a * S d + b) ^ d * 2 ^ (C * d)); [|now rewrite <- EC].
    rewrite <- Nat.mul_assoc. apply Nat.mul_le_mono_l. etransitivity; [exact B|].
    apply Nat.mul_le_mono_l. exact D.
  - rewrite Nat.mul_comm. apply Nat.mul_lt_mono_pos_l; [|apply below_power].
    apply Nat.neq_0_lt_0, Nat.pow_nonzero. lia.
Qed.
