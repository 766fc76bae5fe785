(** Proofs about loading declarations into the table. *)
From Coq Require Import String List NArith ZArith Bool Lia.
From Verif Require Import Base BaseFacts OMap SimpleExt SpecExt SimpleExtFacts.
Import ListNotations.

Lemma norm_stored k n : norm_name k n = stored_name k n.
Proof.
  unfold norm_name, stored_name, starts_with.
  destruct k, (strip_prefix (L "u!") n); reflexivity.
Qed.

Lemma add_urn_get e u a a' : wf_exts e ->
  urn_get (fst (add_extension_urn e u a)) a' =
    match urn_get e a' with
    | Some x => Some x
    | None => if (a =? a')%N then Some u else None
    end.
Proof.
  intros [W _]. unfold add_extension_urn. destruct (urn_get e a) as [x|] eqn:E; cbn [fst].
  - destruct (urn_get e a') eqn:E'; auto. destruct (N.eqb_spec a a'); subst; congruence.
  - unfold urn_get in *. cbn [e_urns]. destruct (N.eqb_spec a a') as [->|Hn].
    + rewrite oget_put_eq by apply ord_N. now rewrite E.
    + rewrite oget_put_neq by (auto using ord_N). now destruct (oget N.compare a' (e_urns e)).
Qed.

Lemma add_urn_decls e u a : e_decls (fst (add_extension_urn e u a)) = e_decls e.
Proof. unfold add_extension_urn. now destruct (urn_get e a). Qed.

Lemma add_ext_urns e k u a n : e_urns (fst (add_extension e k u a n)) = e_urns e.
Proof.
  unfold add_extension. destruct (norm_name k n); auto. now destruct (decl_get e k a) as [[? ?]|].
Qed.

Lemma add_ext_get e k u a n k' a' : wf_exts e ->
  decl_get (fst (add_extension e k u a n)) k' a' =
    match decl_get e k' a' with
    | Some x => Some x
    | None => if kind_eqb k k' && (a =? a')%N then option_map (fun m => (u, m)) (stored_name k n) else None
    end.
Proof.
  intros [_ W]. unfold add_extension. rewrite norm_stored.
  destruct (stored_name k n) as [m|] eqn:Es; cbn [fst].
  - destruct (decl_get e k a) as [[? ?]|] eqn:E; cbn [fst].
    + destruct (decl_get e k' a') eqn:E'; auto.
      destruct (kind_eqb k k') eqn:Ek; auto. apply kind_eqb_eq in Ek; subst.
      destruct (N.eqb_spec a a'); subst; auto. congruence.
    + unfold decl_get in *. cbn [e_decls].
      destruct (kind_eqb k k' && (a =? a')%N) eqn:Ek.
      * apply andb_true_iff in Ek as [Ek Ea]. apply kind_eqb_eq in Ek; subst. apply N.eqb_eq in Ea; subst.
        rewrite oget_put_eq by apply ord_key. now rewrite E.
      * rewrite oget_put_neq; auto using ord_key.
        -- now destruct (oget cmp_key (a', k') (e_decls e)).
        -- intros [= -> ->]. rewrite kind_eqb_refl, N.eqb_refl in Ek. discriminate.
  - destruct (decl_get e k' a'); auto. now destruct (kind_eqb k k' && (a =? a')%N).
Qed.

Lemma from_urns_decls us e : e_decls (fst (from_urns e us)) = e_decls e.
Proof.
  revert e; induction us as [|u us IH]; intros e; auto. cbn.
  pose proof (add_urn_decls e (u_urn u) (u_anchor u)) as H.
  destruct (add_extension_urn e (u_urn u) (u_anchor u)) as [e1 er]. cbn in H.
  specialize (IH e1). destruct (from_urns e1 us). cbn in *. congruence.
Qed.

Lemma from_decls_urns ds e : e_urns (fst (from_decls e ds)) = e_urns e.
Proof.
  revert e; induction ds as [|[d|] ds IH]; intros e; auto; cbn.
  - pose proof (add_ext_urns e (d_kind d) (d_urn d) (d_anchor d) (d_name d)) as H.
    destruct (add_extension e (d_kind d) (d_urn d) (d_anchor d) (d_name d)) as [e1 er]. cbn in H.
    specialize (IH e1). destruct (from_decls e1 ds). cbn in *. congruence.
  - specialize (IH e). destruct (from_decls e ds). auto.
Qed.

Lemma from_urns_get us e a : wf_exts e ->
  urn_get (fst (from_urns e us)) a =
    match urn_get e a with Some x => Some x | None => first_urn a us end.
Proof.
  revert e; induction us as [|u us IH]; intros e W; cbn.
  - now destruct (urn_get e a).
  - pose proof (add_urn_get e (u_urn u) (u_anchor u) a W) as H.
    pose proof (wf_add_urn e (u_urn u) (u_anchor u) W) as W1.
    destruct (add_extension_urn e (u_urn u) (u_anchor u)) as [e1 er]. cbn in H, W1.
    specialize (IH e1 W1). destruct (from_urns e1 us). cbn in *. rewrite IH, H.
    destruct (urn_get e a); auto. now destruct (u_anchor u =? a)%N.
Qed.

Lemma from_decls_get ds e k a : wf_exts e ->
  decl_get (fst (from_decls e ds)) k a =
    match decl_get e k a with Some x => Some x | None => first_decl k a ds end.
Proof.
  revert e; induction ds as [|[d|] ds IH]; intros e W; cbn.
  - now destruct (decl_get e k a).
  - pose proof (add_ext_get e (d_kind d) (d_urn d) (d_anchor d) (d_name d) k a W) as H.
    pose proof (wf_add e (d_kind d) (d_urn d) (d_anchor d) (d_name d) W) as W1.
    destruct (add_extension e (d_kind d) (d_urn d) (d_anchor d) (d_name d)) as [e1 er]. cbn in H, W1.
    specialize (IH e1 W1). destruct (from_decls e1 ds). cbn in *. rewrite IH, H.
    destruct (decl_get e k a); auto.
    destruct (kind_eqb (d_kind d) k && (d_anchor d =? a)%N); auto.
    now destruct (stored_name (d_kind d) (d_name d)).
  - specialize (IH e W). now destruct (from_decls e ds).
Qed.

Lemma from_extensions_get us ds k a :
  decl_get (fst (from_extensions us ds)) k a = first_decl k a ds.
Proof.
  unfold from_extensions. pose proof (wf_from_urns us exts_empty wf_empty) as W.
  pose proof (from_urns_decls us exts_empty) as D.
  destruct (from_urns exts_empty us) as [e1 er1]. cbn in W, D.
  pose proof (from_decls_get ds e1 k a W) as H. destruct (from_decls e1 ds). cbn in *.
  rewrite H. unfold decl_get. now rewrite D.
Qed.

Lemma from_extensions_urn us ds a :
  urn_get (fst (from_extensions us ds)) a = first_urn a us.
Proof.
  unfold from_extensions. pose proof (from_urns_get us exts_empty a wf_empty) as G.
  destruct (from_urns exts_empty us) as [e1 er1]. cbn in G.
  pose proof (from_decls_urns ds e1) as H. destruct (from_decls e1 ds). cbn in *.
  unfold urn_get in *. now rewrite H.
Qed.

(** ** Errors *)

Lemma first_urn_none a us : first_urn a us = None <-> ~ In a (map u_anchor us).
Proof.
  induction us as [|u us IH]; cbn; [tauto|]. destruct (N.eqb_spec (u_anchor u) a) as [->|Hn].
  - split; [discriminate|]. intros H. exfalso. auto.
  - rewrite IH. tauto.
Qed.

Lemma from_urns_errs us e : wf_exts e ->
  snd (from_urns e us) = [] <->
    NoDup (map u_anchor us) /\ (forall a, In a (map u_anchor us) -> urn_get e a = None).
Proof.
  revert e; induction us as [|u us IH]; intros e W; cbn.
  - split; auto. intros _. split; [constructor|tauto].
  - pose proof (add_urn_get e (u_urn u) (u_anchor u)) as H.
    pose proof (wf_add_urn e (u_urn u) (u_anchor u) W) as W1.
    assert (Her : snd (add_extension_urn e (u_urn u) (u_anchor u)) = None <-> urn_get e (u_anchor u) = None).
    { unfold add_extension_urn. destruct (urn_get e (u_anchor u)); cbn; split; congruence. }
    destruct (add_extension_urn e (u_urn u) (u_anchor u)) as [e1 er]. cbn in H, W1, Her.
    specialize (IH e1 W1). destruct (from_urns e1 us) as [e2 ers]. cbn in *.
    transitivity (er = None /\ ers = []).
    { destruct er; cbn; split; try tauto; try (intros [[=] _]); intros [=]. }
    rewrite IH, Her. split.
    + intros (Hg & Hnd & Hall). split.
      * constructor; auto. intros Hin. specialize (Hall _ Hin). rewrite H in Hall by auto.
        rewrite Hg, N.eqb_refl in Hall. discriminate.
      * intros a [<-|Ha]; auto. specialize (Hall _ Ha). rewrite H in Hall by auto.
        now destruct (urn_get e a).
    + intros [Hnd Hall]. inversion Hnd as [|? ? Hni Hnd']; subst. split; [apply Hall; auto|].
      split; auto. intros a Ha. rewrite H by auto. rewrite (Hall a) by auto.
      destruct (N.eqb_spec (u_anchor u) a) as [E|]; [subst a; tauto|auto].
Qed.

Lemma from_decls_errs ds e : wf_exts e ->
  snd (from_decls e ds) = [] <->
    exists l, ds = map Some l /\
      (forall d, In d l -> stored_name (d_kind d) (d_name d) <> None /\ urn_get e (d_urn d) <> None /\
                           decl_get e (d_kind d) (d_anchor d) = None) /\
      NoDup (map (fun d => (d_anchor d, d_kind d)) l).
Proof.
  revert e; induction ds as [|[d|] ds IH]; intros e W; cbn.
  - split; auto. intros _. exists []. split; auto. split; [intros ? []|constructor].
  - pose proof (add_ext_get e (d_kind d) (d_urn d) (d_anchor d) (d_name d)) as H.
    pose proof (wf_add e (d_kind d) (d_urn d) (d_anchor d) (d_name d) W) as W1.
    pose proof (add_ext_urns e (d_kind d) (d_urn d) (d_anchor d) (d_name d)) as U1.
    assert (Her : snd (add_extension e (d_kind d) (d_urn d) (d_anchor d) (d_name d)) = None <->
                  stored_name (d_kind d) (d_name d) <> None /\ urn_get e (d_urn d) <> None /\
                  decl_get e (d_kind d) (d_anchor d) = None).
    { unfold add_extension. rewrite norm_stored. destruct (stored_name (d_kind d) (d_name d)); cbn.
      - destruct (decl_get e (d_kind d) (d_anchor d)) as [[? ?]|]; cbn.
        + split; [discriminate|]. intros (_ & _ & [=]).
        + destruct (urn_get e (d_urn d)); cbn; split.
          * intros _. repeat split; congruence.
          * auto.
          * discriminate.
          * intros (_ & F & _). congruence.
      - split; [discriminate|]. intros (F & _). congruence. }
    destruct (add_extension e (d_kind d) (d_urn d) (d_anchor d) (d_name d)) as [e1 er]. cbn in H, W1, U1, Her.
    assert (G : forall a, urn_get e1 a = urn_get e a) by (intros; unfold urn_get; now rewrite U1).
    specialize (IH e1 W1). destruct (from_decls e1 ds) as [e2 ers]. cbn in *.
    transitivity (er = None /\ ers = []).
    { destruct er; cbn; split; try tauto; try (intros [[=] _]); intros [=]. }
    rewrite IH, Her. split.
    + intros ((Hs & Hu & Hd) & l & -> & Hall & Hnd). exists (d :: l). split; auto. split.
      * intros d' [<-|Hd']; [tauto|]. destruct (Hall _ Hd') as (A & B & C). rewrite G in B.
        repeat split; auto. rewrite H in C by auto. now destruct (decl_get e (d_kind d') (d_anchor d')).
      * cbn. constructor; auto. intros Hin. apply in_map_iff in Hin as (d' & [= E1 E2] & Hd').
        destruct (Hall _ Hd') as (A & B & C). rewrite E1, E2, H in C by auto. rewrite Hd in C.
        rewrite kind_eqb_refl, N.eqb_refl in C. cbn in C.
        destruct (stored_name (d_kind d) (d_name d)); [discriminate|congruence].
    + intros ([|d' l] & E & Hall & Hnd); [discriminate|]. injection E as <- E.
      cbn in Hnd. inversion Hnd as [|? ? Hni Hnd']; subst. split; [apply Hall; now left|].
      exists l. split; auto. split; auto. intros d' Hd'. destruct (Hall d' (or_intror Hd')) as (A & B & C).
      rewrite G. repeat split; auto. rewrite H by auto. rewrite C.
      destruct (kind_eqb (d_kind d) (d_kind d') && (d_anchor d =? d_anchor d')%N) eqn:Ek; auto.
      apply andb_true_iff in Ek as [Ek Ea]. apply kind_eqb_eq in Ek. apply N.eqb_eq in Ea.
      exfalso. apply Hni. apply in_map_iff. exists d'. split; auto. congruence.
  - destruct (from_decls e ds). cbn. split; [discriminate|]. intros ([|? ?] & [=] & _).
Qed.

Lemma from_extensions_clean us ds :
  snd (from_extensions us ds) = [] <-> clean_decls us ds.
Proof.
  unfold from_extensions, clean_decls.
  pose proof (wf_from_urns us exts_empty wf_empty) as W.
  pose proof (from_urns_decls us exts_empty) as D.
  pose proof (fun a => from_urns_get us exts_empty a wf_empty) as G.
  pose proof (from_urns_errs us exts_empty wf_empty) as Er.
  destruct (from_urns exts_empty us) as [e1 er1]. cbn in W, D, G, Er.
  pose proof (from_decls_errs ds e1 W) as Er2. destruct (from_decls e1 ds) as [e2 er2]. cbn in *.
  transitivity (er1 = [] /\ er2 = []).
  { destruct er1, er2; cbn; split; try tauto; try (intros [? ?]; congruence); congruence. }
  rewrite Er, Er2. split.
  - intros ((Hn & _) & l & -> & Hall & Hnd). split; auto. exists l. repeat split; auto.
    + intros F. now apply (proj1 (Hall _ H)).
    + destruct (Hall _ H) as (_ & B & _). rewrite G in B.
      destruct (in_dec N.eq_dec (d_urn d) (map u_anchor us)); auto.
      apply first_urn_none in n. congruence.
  - intros (Hn & l & -> & Hall & Hnd). split; [split; auto|]. exists l. split; auto. split; auto.
    intros d Hd. destruct (Hall _ Hd) as [A B]. repeat split; auto.
    + rewrite G. intros F. apply first_urn_none in F. tauto.
    + unfold decl_get. now rewrite D.
Qed.
