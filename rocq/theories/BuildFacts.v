(** Line numbers matter to the plan built from a tree only in errors. *)
From Coq Require Import String List NArith ZArith Bool Lia PeanoNat.
From Verif Require Import Base BaseFacts Peg Names SimpleExt Out Anchors Types Literals Exprs ExtArgs Registry Rels
  RelGrammar Tree SpecTree TreeFacts Structural StructuralFacts LineView RelRead.
Import ListNotations.

(** Results that agree up to the line numbers of errors, and up to [R]. *)
Definition same {X Y} (R : X -> Y -> Prop) (x : res perror X) (y : res perror Y) : Prop :=
  match x, y with
  | Ok a, Ok b => R a b
  | Err a, Err b => unline a = unline b
  | Panic a, Panic b => a = b
  | _, _ => False
  end.
Lemma same_bind {X Y X' Y'} (R : X -> Y -> Prop) (S : X' -> Y' -> Prop) x y f g :
  same R x y -> (forall a b, R a b -> same S (f a) (g b)) -> same S (rbind x f) (rbind y g).
Proof. intros H Hf. destruct x, y; cbn in *; try contradiction; auto. Qed.
Lemma same_refl {X} (x : res perror X) : same eq x x.
Proof. destruct x; cbn; auto. Qed.
Lemma same_norm {X} (x y : res perror X) : same eq x y -> norm id x = norm id y.
Proof. destruct x, y; cbn; intros H; try contradiction; try congruence. Qed.
Lemma same_lift {X} m n (x : pres X) : same eq (lift_plan m x) (lift_plan n x).
Proof. destruct x as [|err|]; cbn; auto. Qed.
Lemma same_list {X Y X' Y'} (R : X' -> Y' -> Prop) (f : X -> res perror X') (g : Y -> res perror Y') l l' :
  Forall2 (fun x y => same R (f x) (g y)) l l' -> same (Forall2 R) (rlist f l) (rlist g l').
Proof.
  induction 1 as [|x y l l' H _ IH]; cbn [rlist]; [constructor|].
  eapply same_bind; [exact H|]. intros a b Hab. eapply same_bind; [exact IH|]. intros. cbn. now constructor.
Qed.
Lemma same_ok {X} (x : res perror X) a : same eq x (Ok a) -> x = Ok a.
Proof. destruct x; cbn; try contradiction. now intros ->. Qed.

Section Build.
  Context `{U : Unicode} `{F : Floats}.
  Variable reg : registry.
  Variable e : exts.

  (** Addenda up to their lines. *)
  Definition same_ainv (a b : ainv) : Prop := ai_kind a = ai_kind b /\ ai_name a = ai_name b /\ ai_args a = ai_args b.

  Lemma lower_addendum_same c m n : same same_ainv (lower_addendum e (c, m)) (lower_addendum e (c, n)).
  Proof.
    destruct c as [k nm args]. cbn [lower_addendum]. destruct (lower_name nm); cbn; auto.
    destruct (lower_xargs e args); cbn; auto. repeat split.
  Qed.
  Lemma resolve_same t m n name args : same eq (resolve reg t m name args) (resolve reg t n name args).
  Proof. unfold resolve. destruct (parse_with_type reg t name args) as [|[]|]; cbn; auto. Qed.
  Lemma resolve_addendum_same a b : same_ainv a b -> same eq (resolve_addendum reg a) (resolve_addendum reg b).
  Proof. intros (H1 & H2 & H3). unfold resolve_addendum. rewrite H1, H2, H3. apply resolve_same. Qed.
  Lemma standard_loop_same l l' : Forall2 same_ainv l l' -> forall enh opts,
    same eq (standard_loop reg l enh opts) (standard_loop reg l' enh opts).
  Proof.
    induction 1 as [|a b l l' H _ IH]; intros enh opts; cbn [standard_loop]; [reflexivity|].
    pose proof H as (H1 & _). rewrite <- H1. destruct (ai_kind a); try reflexivity.
    - destruct enh; [reflexivity|]. eapply same_bind; [now apply resolve_addendum_same|]. intros x y <-. apply IH.
    - eapply same_bind; [now apply resolve_addendum_same|]. intros x y <-. apply IH.
  Qed.
  Lemma standard_addenda_same l l' : Forall2 same_ainv l l' -> same eq (standard_addenda reg l) (standard_addenda reg l').
  Proof.
    intros H. unfold standard_addenda. eapply same_bind; [now apply standard_loop_same|]. intros x y <-. apply same_refl.
  Qed.
  Lemma filter_same (f : ainv -> bool) l l' : (forall a b, same_ainv a b -> f a = f b) -> Forall2 same_ainv l l' ->
    Forall2 same_ainv (filter f l) (filter f l').
  Proof.
    intros Hf. induction 1 as [|a b l l' H _ IH]; [constructor|]. cbn [filter]. rewrite (Hf a b H). destruct (f b); auto.
  Qed.
  Lemma extension_read_addenda_same m n l l' : Forall2 same_ainv l l' ->
    same eq (extension_read_addenda reg m l) (extension_read_addenda reg n l').
  Proof.
    intros H. unfold extension_read_addenda.
    assert (Hf : forall a b, same_ainv a b -> is_table a = is_table b).
    { intros a b (H1 & _). unfold is_table. now rewrite H1. }
    pose proof (filter_same is_table l l' Hf H) as Ht.
    destruct Ht as [|a b r r' Hab [|c d r1 r1' Hcd _]]; [reflexivity| |reflexivity].
    eapply same_bind; [now apply resolve_addendum_same|]. intros x y <-.
    eapply same_bind.
    { apply standard_addenda_same, filter_same; [|exact H]. intros. f_equal. auto. }
    intros x' y' <-. reflexivity.
  Qed.
  Lemma parse_relation_same y m n ads ads' cs : Forall2 same_ainv ads ads' ->
    same eq (parse_relation reg e y m ads cs) (parse_relation reg e y n ads' cs).
  Proof.
    intros H. unfold parse_relation.
    destruct y; try (eapply same_bind; [now apply standard_addenda_same|]; intros x' y' <-; apply same_lift).
    - eapply same_bind; [now apply extension_read_addenda_same|]. intros p q <-. apply same_lift.
    - destruct H; [|reflexivity]. eapply same_bind; [apply same_lift|]. intros a b <-. destruct (child_count_ok _ _); [|reflexivity].
      eapply same_bind; [apply resolve_same|]. intros x y <-. reflexivity.
  Qed.
  Lemma Forall2_eq {A} (l l' : list A) : Forall2 eq l l' -> l = l'.
  Proof. induction 1; congruence. Qed.
  Lemma build_rel_same n : same eq (build_rel reg e n) (build_rel reg e (unnumber n)).
  Proof.
    induction n as [y l ads cs IH] using rnode_ind2. cbn [unnumber build_rel].
    eapply same_bind.
    { apply same_list with (R := eq). induction IH; constructor; auto. }
    intros a b Hab. apply Forall2_eq in Hab as <-. eapply same_bind.
    { apply same_list with (R := same_ainv). clear IH. induction ads as [|[c m] ads IH]; constructor; auto. apply lower_addendum_same. }
    intros x x' Hx. now apply parse_relation_same.
  Qed.
  Lemma build_plan_rel_same n : same eq (build_plan_rel reg e n) (build_plan_rel reg e (unnumber n)).
  Proof.
    assert (G : same eq (let? p := build_rel reg e n in Ok (PRel (fst p))) (let? p := build_rel reg e (unnumber n) in Ok (PRel (fst p)))).
    { eapply same_bind; [apply build_rel_same|]. intros a b <-. reflexivity. }
    destruct n as [y l ads cs]. destruct y; try exact G. clear G. cbn [unnumber build_plan_rel].
    destruct ads as [|[c m] ads]; [|reflexivity]. cbn [map].
    eapply same_bind; [apply same_lift|]. intros x y <-.
    destruct cs as [|c [|c' cs]]; [reflexivity| |reflexivity]. cbn [map].
    eapply same_bind; [apply build_rel_same|]. intros a b <-. reflexivity.
  Qed.
  Theorem build_numbers n : norm id (build_plan_rel reg e n) = norm id (build_plan_rel reg e (unnumber n)).
  Proof. apply same_norm, build_plan_rel_same. Qed.
End Build.
