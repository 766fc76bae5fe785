(** What the values produced by a grammar have in common. *)
From Coq Require Import List NArith Bool.
From Verif Require Import Base Peg PegFacts.
Import ListNotations.

Definition yields {A} (P : A -> Prop) (p : peg A) : Prop := forall s a r, p s = Some (a, r) -> P a.

Lemma pmap_inv {A B} (f : A -> B) (p : peg A) s b r : pmap f p s = Some (b, r) ->
  exists a, p s = Some (a, r) /\ b = f a.
Proof. unfold pmap. destruct (p s) as [[a r']|] eqn:E; [|discriminate]. intros [= <- <-]. eauto. Qed.
Lemma pmap_none_inv {A B} (f : A -> B) (p : peg A) s : pmap f p s = None -> p s = None.
Proof. unfold pmap. destruct (p s) as [[a r']|]; [discriminate|auto]. Qed.
Lemma palt_inv {A} (p q : peg A) s x : palt p q s = Some x -> p s = Some x \/ p s = None /\ q s = Some x.
Proof. unfold palt. destruct (p s) as [y|]; auto. Qed.

Lemma yields_imp {A} (P Q : A -> Prop) (p : peg A) : (forall a, P a -> Q a) -> yields P p -> yields Q p.
Proof. intros H Hp s a r E. eauto. Qed.
Lemma yields_true {A} (p : peg A) : yields (fun _ => True) p.
Proof. intros s a r _. exact I. Qed.
Lemma yields_ret {A} (P : A -> Prop) a : P a -> yields P (pret a).
Proof. intros H s b r E. injection E as <- <-. exact H. Qed.
Lemma yields_bind {A B} (P : A -> Prop) (Q : B -> Prop) (p : peg A) (f : A -> peg B) :
  yields P p -> (forall a, P a -> yields Q (f a)) -> yields Q (pbind p f).
Proof.
  intros Hp Hf s b r E. unfold pbind in E. destruct (p s) as [[a r']|] eqn:Ep; [|discriminate]. eapply Hf; eauto.
Qed.
Lemma yields_then {A B} (Q : B -> Prop) (p : peg A) (q : peg B) : yields Q q -> yields Q (pthen p q).
Proof. intros Hq s b r E. unfold pthen, pbind in E. destruct (p s) as [[a r']|]; [|discriminate]. eauto. Qed.
Lemma yields_map {A B} (P : A -> Prop) (Q : B -> Prop) (f : A -> B) (p : peg A) :
  yields P p -> (forall a, P a -> Q (f a)) -> yields Q (pmap f p).
Proof. intros Hp Hf s b r E. apply pmap_inv in E as (a & E & ->). eauto. Qed.
Lemma yields_alt {A} (P : A -> Prop) (p q : peg A) : yields P p -> yields P q -> yields P (palt p q).
Proof. intros Hp Hq s a r E. unfold palt in E. destruct (p s) as [[b r']|] eqn:Ep; [|eauto]. injection E as <- <-. eauto. Qed.
Lemma yields_fail {A} (P : A -> Prop) : yields P pfail.
Proof. intros s a r E. discriminate. Qed.
Lemma yields_opt {A} (P : A -> Prop) (p : peg A) :
  yields P p -> yields (fun o => match o with Some a => P a | None => True end) (popt p).
Proof.
  intros Hp s a r E. unfold popt in E. destruct (p s) as [[b r']|] eqn:Ep; injection E as <- <-; eauto.
Qed.
Lemma yields_star {A} (P : A -> Prop) (p : peg A) : yields P p -> yields (Forall P) (pstar p).
Proof.
  intros Hp s l r E. unfold pstar in E. injection E as E. remember (length s) as n. clear Heqn.
  revert s l r E. induction n as [|n IH]; intros s l r E; cbn in E.
  - injection E as <- <-. constructor.
  - destruct (p s) as [[a r']|] eqn:Ep; [|injection E as <- <-; constructor].
    destruct (pstar_n n p r') as [l' r''] eqn:En. injection E as <- <-. constructor; eauto.
Qed.
Lemma yields_plus {A} (P : A -> Prop) (p : peg A) : yields P p -> yields (Forall P) (pplus p).
Proof.
  intros Hp. unfold pplus. eapply yields_bind; [exact Hp|]. intros a Ha. eapply yields_bind; [apply yields_star, Hp|].
  intros l Hl. apply yields_ret. now constructor.
Qed.
Lemma yields_sep1 {A} (P : A -> Prop) sep (p : peg A) : yields P p -> yields (Forall P) (psep1 sep p).
Proof.
  intros Hp. unfold psep1. eapply yields_bind; [exact Hp|]. intros a Ha.
  eapply yields_bind; [apply yields_star, yields_then, Hp|]. intros l Hl. apply yields_ret. now constructor.
Qed.
Lemma yields_sep0 {A} (P : A -> Prop) sep (p : peg A) : yields P p -> yields (Forall P) (psep0 sep p).
Proof. intros Hp. apply yields_alt; [now apply yields_sep1|]. apply yields_ret. constructor. Qed.
Lemma yields_char f : yields (fun c => f c = true) (pchar f).
Proof.
  intros s c r E. unfold pchar in E. destruct s as [|d s]; [discriminate|].
  destruct (f d) eqn:Ed; [|discriminate]. now injection E as <- <-.
Qed.
Lemma span_all f s : forallb f (fst (span f s)) = true.
Proof. induction s as [|c s IH]; cbn; auto. destruct (f c) eqn:E; cbn; auto. destruct (span f s). cbn in *. now rewrite E. Qed.
Lemma yields_while f : yields (fun s => forallb f s = true) (pwhile f).
Proof. intros s c r E. unfold pwhile in E. pose proof (span_all f s) as H. destruct (span f s). injection E as <- <-. exact H. Qed.
Lemma yields_while1 f : yields (fun s => s <> [] /\ forallb f s = true) (pwhile1 f).
Proof.
  intros s c r E. unfold pwhile1 in E. pose proof (span_all f s) as H. destruct (span f s) as [[|x l] t]; [discriminate|].
  injection E as <- <-. split; [discriminate|exact H].
Qed.
Lemma yields_toks l : yields (fun t => In t l) (ptoks l).
Proof.
  induction l as [|t l IH]; cbn [ptoks]; [apply yields_fail|]. apply yields_alt.
  - eapply yields_map; [apply yields_true|]. intros _ _. now left.
  - eapply yields_imp; [|exact IH]. intros a Ha. now right.
Qed.
