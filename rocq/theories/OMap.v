(** Rust's [BTreeMap] as a strictly sorted association list, so that iteration
    order is the order of the list. *)
From Coq Require Import List NArith Bool Lia Sorted.
Import ListNotations.

Section OMap.
  Context {K V : Type} (cmp : K -> K -> comparison).

  Fixpoint oget (k : K) (m : list (K * V)) : option V :=
    match m with
    | [] => None
    | (k', v) :: r =>
        match cmp k k' with
        | Eq => Some v
        | Lt => None
        | Gt => oget k r
        end
    end.

  (** Insert or replace. *)
  Fixpoint oput (k : K) (v : V) (m : list (K * V)) : list (K * V) :=
    match m with
    | [] => [(k, v)]
    | (k', v') :: r =>
        match cmp k k' with
        | Eq => (k, v) :: r
        | Lt => (k, v) :: m
        | Gt => (k', v') :: oput k v r
        end
    end.
End OMap.

(** The three-way comparison is a total order. *)
Record ord {K} (cmp : K -> K -> comparison) : Prop := {
  ord_eq : forall a b, cmp a b = Eq <-> a = b;
  ord_sym : forall a b, cmp b a = CompOpp (cmp a b);
  ord_trans : forall a b c, cmp a b = Lt -> cmp b c = Lt -> cmp a c = Lt
}.

Lemma ord_N : ord N.compare.
Proof.
  split.
  - apply N.compare_eq_iff.
  - intros; apply N.compare_antisym.
  - intros a b c. rewrite !N.compare_lt_iff. lia.
Qed.

(** Lexicographic pairs. *)
Definition cmp_pair {A B} (ca : A -> A -> comparison) (cb : B -> B -> comparison)
  (x y : A * B) : comparison :=
  match ca (fst x) (fst y) with
  | Eq => cb (snd x) (snd y)
  | c => c
  end.

Lemma ord_pair {A B} (ca : A -> A -> comparison) (cb : B -> B -> comparison) :
  ord ca -> ord cb -> ord (cmp_pair ca cb).
Proof.
  intros [ea sa ta] [eb sb tb]. unfold cmp_pair. split.
  - intros [a b] [a' b']; cbn. destruct (ca a a') eqn:E.
    + apply ea in E; subst. rewrite eb. split; congruence.
    + split; [discriminate|]. intros [= -> ->]. assert (ca a' a' = Eq) by now apply ea. congruence.
    + split; [discriminate|]. intros [= -> ->]. assert (ca a' a' = Eq) by now apply ea. congruence.
  - intros [a b] [a' b']; cbn. rewrite (sa a a'), (sb b b'). destruct (ca a a'); auto.
  - intros [a b] [a' b'] [a'' b'']; cbn.
    destruct (ca a a') eqn:E1; try discriminate; destruct (ca a' a'') eqn:E2; try discriminate.
    + apply ea in E1, E2; subst. assert (ca a'' a'' = Eq) as -> by now apply ea. apply tb.
    + apply ea in E1; subst. now rewrite E2.
    + apply ea in E2; subst. now rewrite E1.
    + now rewrite (ta _ _ _ E1 E2).
Qed.

Section Facts.
  Context {K V : Type} (cmp : K -> K -> comparison) (O : ord cmp).

  Definition klt (a b : K * V) : Prop := cmp (fst a) (fst b) = Lt.
  Definition osorted (m : list (K * V)) : Prop := StronglySorted klt m.

  Lemma cmp_refl a : cmp a a = Eq.
  Proof. now apply (ord_eq _ O). Qed.

  Lemma cmp_gt_lt a b : cmp a b = Gt <-> cmp b a = Lt.
  Proof. rewrite (ord_sym _ O a b). destruct (cmp a b); cbn; split; congruence. Qed.

  Lemma oput_in k (v : V) (m : list (K * V)) x : In x (oput cmp k v m) -> x = (k, v) \/ In x m.
  Proof.
    induction m as [|[k' v'] r IH]; cbn.
    - intros [<-|[]]; auto.
    - destruct (cmp k k'); cbn; intuition.
  Qed.

  Lemma oput_sorted k (v : V) (m : list (K * V)) : osorted m -> osorted (oput cmp k v m).
  Proof.
    unfold osorted. induction 1 as [|[k' v'] r Hs IH Hf]; cbn.
    - repeat constructor.
    - destruct (cmp k k') eqn:E.
      + apply (ord_eq _ O) in E; subst. constructor; auto.
      + constructor; [constructor; auto|]. constructor; [exact E|].
        rewrite Forall_forall in *. intros x Hx. unfold klt in *; cbn in *.
        eapply (ord_trans _ O); eauto.
      + constructor; auto. rewrite Forall_forall in *. intros x Hx.
        apply oput_in in Hx as [->|Hx]; auto. unfold klt; cbn. now apply cmp_gt_lt.
  Qed.

  Lemma oget_put_eq k (v : V) (m : list (K * V)) : oget cmp k (oput cmp k v m) = Some v.
  Proof.
    induction m as [|[k' v'] r IH]; cbn; [now rewrite cmp_refl|].
    destruct (cmp k k') eqn:E; cbn; rewrite ?cmp_refl, ?E; auto.
  Qed.

  Lemma oget_put_neq k k' (v : V) (m : list (K * V)) : osorted m -> k' <> k -> oget cmp k' (oput cmp k v m) = oget cmp k' m.
  Proof.
    intros Hs Hn. induction Hs as [|[k0 v0] r Hs IH Hf]; cbn.
    - destruct (cmp k' k) eqn:E; auto. now apply (ord_eq _ O) in E.
    - destruct (cmp k k0) eqn:E; cbn.
      + apply (ord_eq _ O) in E; subst. destruct (cmp k' k0) eqn:E'; auto. now apply (ord_eq _ O) in E'.
      + destruct (cmp k' k) eqn:E'; auto.
        * now apply (ord_eq _ O) in E'.
        * now rewrite (ord_trans _ O _ _ _ E' E).
      + destruct (cmp k' k0) eqn:E'; auto.
  Qed.

  Lemma oget_in k (v : V) (m : list (K * V)) : osorted m -> oget cmp k m = Some v <-> In (k, v) m.
  Proof.
    induction 1 as [|[k0 v0] r Hs IH Hf]; cbn.
    - split; [discriminate|tauto].
    - rewrite Forall_forall in Hf. destruct (cmp k k0) eqn:E.
      + apply (ord_eq _ O) in E; subst. split; [intros [= ->]; auto|].
        intros [[= ->]|H]; auto. apply Hf in H. unfold klt in H; cbn in H.
        rewrite cmp_refl in H. discriminate.
      + split; [discriminate|]. intros [[= -> ->]|H].
        * rewrite cmp_refl in E. discriminate.
        * apply Hf in H. unfold klt in H; cbn in H. pose proof (ord_trans _ O _ _ _ E H) as C.
          rewrite cmp_refl in C. discriminate.
      + rewrite IH. split; auto. intros [[= -> ->]|H]; auto.
        rewrite cmp_refl in E. discriminate.
  Qed.

  Lemma oget_none k (m : list (K * V)) : osorted m -> oget cmp k m = None <-> ~ In k (map fst m).
  Proof.
    intros Hs. split.
    - intros E H. apply in_map_iff in H as ([k' v] & <- & H). apply oget_in in H; auto.
      cbn in *. congruence.
    - intros H. destruct (oget cmp k m) eqn:E; auto. apply oget_in in E; auto.
      exfalso. apply H. apply in_map_iff. exists (k, v). auto.
  Qed.

  Lemma sorted_in_eq (m m' : list (K * V)) : osorted m -> osorted m' ->
    (forall x, In x m <-> In x m') -> m = m'.
  Proof.
    intros Hs. revert m'. induction Hs as [|x r Hs IH Hf]; intros m' Hs' H.
    - destruct m' as [|y m']; auto. exfalso. apply (H y). now left.
    - destruct Hs' as [|y r' Hs' Hf'].
      + exfalso. apply (H x). now left.
      + rewrite Forall_forall in *.
        assert (x = y) as ->.
        { destruct (proj1 (H x) (or_introl eq_refl)) as [E|Hx]; auto.
          destruct (proj2 (H y) (or_introl eq_refl)) as [E|Hy]; auto.
          apply Hf' in Hx. apply Hf in Hy. unfold klt in *.
          pose proof (ord_trans _ O _ _ _ Hx Hy) as C. rewrite cmp_refl in C. discriminate. }
        f_equal. apply IH; auto. intros z. split; intros Hz.
        * destruct (proj1 (H z) (or_intror Hz)) as [<-|]; auto.
          apply Hf in Hz. unfold klt in Hz. rewrite cmp_refl in Hz. discriminate.
        * destruct (proj2 (H z) (or_intror Hz)) as [<-|]; auto.
          apply Hf' in Hz. unfold klt in Hz. rewrite cmp_refl in Hz. discriminate.
  Qed.

  Lemma oget_ext (m m' : list (K * V)) : osorted m -> osorted m' ->
    (forall k, oget cmp k m = oget cmp k m') -> m = m'.
  Proof.
    intros Hs Hs' H. apply sorted_in_eq; auto. intros [k v].
    rewrite <- !oget_in by auto. now rewrite H.
  Qed.

  Lemma osorted_nodup (m : list (K * V)) : osorted m -> NoDup (map fst m).
  Proof.
    induction 1 as [|[k v] r Hs IH Hf]; cbn; constructor; auto.
    rewrite Forall_forall in Hf. intros H. apply in_map_iff in H as ([k' v'] & E & H). cbn in E. subst.
    apply Hf in H. unfold klt in H; cbn in H. rewrite cmp_refl in H. discriminate.
  Qed.
End Facts.
