(** Properties of the extension registry and of argument decoding. *)
From Coq Require Import String List NArith ZArith Bool Lia.
From Verif Require Import Base BaseFacts SimpleExt Out Types Literals Exprs ExtArgs Registry SpecRegistry.
Import ListNotations.

(** ** Hash maps *)
Lemma xtype_eqb_eq a b : xtype_eqb a b = true <-> a = b.
Proof. destruct a, b; cbn; split; congruence. Qed.
Lemma rkey_eqb_eq a b : rkey_eqb a b = true <-> a = b.
Proof.
  destruct a as [t n], b as [t' n']. unfold rkey_eqb. cbn [fst snd]. rewrite andb_true_iff, xtype_eqb_eq, streqb_eq.
  split; [intros []; congruence|intros [= -> ->]; auto].
Qed.
Lemma rkey_eqb_refl a : rkey_eqb a a = true.
Proof. now apply rkey_eqb_eq. Qed.
Lemma rkey_eqb_false a b : a <> b -> rkey_eqb a b = false.
Proof. intros H. destruct (rkey_eqb a b) eqn:E; auto. apply rkey_eqb_eq in E. contradiction. Qed.
Lemma hget_hput {V} k k' (v : V) m : hget k (hput k' v m) = if rkey_eqb k k' then Some v else hget k m.
Proof.
  induction m as [|[k1 v1] m IH]; cbn [hput hget]; [destruct (rkey_eqb k k'); reflexivity|].
  destruct (rkey_eqb k' k1) eqn:E1; cbn [hget].
  - apply rkey_eqb_eq in E1. subst k1. now destruct (rkey_eqb k k').
  - rewrite IH. destruct (rkey_eqb k k1) eqn:E2; auto. apply rkey_eqb_eq in E2. subst k1.
    destruct (rkey_eqb k k') eqn:E3; auto. apply rkey_eqb_eq in E3. subst k'. now rewrite rkey_eqb_refl in E1.
Qed.

(** ** The registry holds exactly the registrations that count *)
Definition holds (k : list (xtype * extension)) (r : registry) : Prop :=
  (forall t n, hget (t, n) (rg_handlers r) =
     option_map snd (find (fun th => rkey_eqb (t, n) (fst th, xe_name (snd th))) k)) /\
  (forall t u, hget (t, u) (rg_urls r) =
     option_map (fun th => xe_name (snd th)) (find (fun th => rkey_eqb (t, u) (fst th, xe_url (snd th))) k)).

Lemma find_snoc {A} (f : A -> bool) l x :
  find f (l ++ [x]) = match find f l with Some y => Some y | None => if f x then Some x else None end.
Proof. induction l as [|y l IH]; cbn; auto. destruct (f y); auto. Qed.
Lemma find_none_iff {A} (f : A -> bool) l : find f l = None <-> forall x, In x l -> f x = false.
Proof.
  split; [apply find_none|]. induction l as [|y l IH]; intros H; auto. cbn. rewrite (H y) by now left.
  apply IH. intros x Hx. apply H. now right.
Qed.

Lemma register_cases k r t h : holds k r ->
  match fst (register t h r) with
  | Ok _ => (forall x, In x k -> ~ same_name (t, h) x /\ ~ same_url (t, h) x) /\ holds (k ++ [(t, h)]) (snd (register t h r))
  | Err _ => (exists x, In x k /\ (same_name (t, h) x \/ same_url (t, h) x)) /\ snd (register t h r) = r
  | Panic _ => False
  end.
Proof.
  intros [Hh Hu]. unfold register. rewrite Hh.
  destruct (find (fun th => rkey_eqb (t, xe_name h) (fst th, xe_name (snd th))) k) as [x|] eqn:E; cbn [option_map].
  { cbn [fst snd]. split; auto. apply find_some in E as [E1 E2]. apply rkey_eqb_eq in E2. injection E2 as E2 E3.
    exists x. split; auto. left. split; auto. }
  assert (Hn : forall x, In x k -> ~ same_name (t, h) x).
  { intros x Hx [S1 S2]. cbn in S1, S2. rewrite find_none_iff in E. specialize (E x Hx). cbn in E.
    rewrite <- S1, <- S2, rkey_eqb_refl in E. discriminate. }
  rewrite Hu. destruct (find (fun th => rkey_eqb (t, xe_url h) (fst th, xe_url (snd th))) k) as [x|] eqn:E'; cbn [option_map].
  - apply find_some in E' as [E1 E2]. apply rkey_eqb_eq in E2. injection E2 as E2 E3.
    destruct (streqb (xe_name (snd x)) (xe_name h)) eqn:E4.
    + exfalso. apply streqb_eq in E4. apply (Hn x E1). split; auto.
    + cbn [fst snd]. split; auto. exists x. split; auto. right. split; auto.
  - assert (Hv : forall x, In x k -> ~ same_url (t, h) x).
    { intros x Hx [S1 S2]. cbn in S1, S2. rewrite find_none_iff in E'. specialize (E' x Hx). cbn in E'.
      rewrite <- S1, <- S2, rkey_eqb_refl in E'. discriminate. }
    cbn [fst snd]. split; [auto|]. split; intros t' n; cbn [rg_handlers rg_urls]; rewrite hget_hput, find_snoc; cbn [fst snd].
    + destruct (rkey_eqb (t', n) (t, xe_name h)) eqn:E5.
      * apply rkey_eqb_eq in E5. injection E5 as -> ->. now rewrite E.
      * rewrite Hh. now destruct (find (fun th => rkey_eqb (t', n) (fst th, xe_name (snd th))) k).
    + destruct (rkey_eqb (t', n) (t, xe_url h)) eqn:E5.
      * apply rkey_eqb_eq in E5. injection E5 as -> ->. now rewrite E'.
      * rewrite Hu. now destruct (find (fun th => rkey_eqb (t', n) (fst th, xe_url (snd th))) k).
Qed.

Lemma run_regs_holds l : exists k, accepts l k /\ holds k (run_regs l).
Proof.
  induction l as [|[t h] l IH] using rev_ind.
  - exists []. split; [constructor|]. split; reflexivity.
  - destruct IH as (k & Ha & Hk). pose proof (register_cases k (run_regs l) t h Hk) as C.
    assert (Er : run_regs (l ++ [(t, h)]) = snd (register t h (run_regs l))) by (unfold run_regs; now rewrite fold_left_app).
    rewrite Er. destruct (fst (register t h (run_regs l))) as [?|?|?]; [| |contradiction].
    + exists (k ++ [(t, h)]). destruct C. split; auto. now constructor.
    + exists k. destruct C as [(x & C1 & C2) C3]. rewrite C3. split; auto. econstructor; eauto.
Qed.
Lemma accepts_snoc l th k : accepts (l ++ [th]) k ->
  (exists k0, k = k0 ++ [th] /\ accepts l k0 /\ forall x, In x k0 -> ~ same_name th x /\ ~ same_url th x) \/
  (accepts l k /\ exists x, In x k /\ (same_name th x \/ same_url th x)).
Proof.
  intros H. remember (l ++ [th]) as l' eqn:E. destruct H as [|l1 k1 th1 A1 N1|l1 k1 th1 x A1 I1 C1].
  - destruct l; discriminate.
  - apply app_inj_tail in E as [-> ->]. left. eauto.
  - apply app_inj_tail in E as [-> ->]. right. eauto.
Qed.
Lemma accepts_fun l : forall k k', accepts l k -> accepts l k' -> k = k'.
Proof.
  induction l as [|th l IH] using rev_ind; intros k k' H H'.
  - assert (G : forall k, accepts [] k -> k = []).
    { clear. intros k H. remember (@nil (xtype * extension)) as l eqn:E. destruct H; auto; destruct l; discriminate. }
    now rewrite (G k H), (G k' H').
  - apply accepts_snoc in H as [(k1 & -> & A1 & N1)|(A1 & x & I1 & C1)],
      H' as [(k2 & -> & A2 & N2)|(A2 & y & I2 & C2)]; auto.
    + f_equal; auto.
    + exfalso. rewrite <- (IH _ _ A1 A2) in I2. destruct (N1 y I2). tauto.
    + exfalso. rewrite (IH _ _ A1 A2) in I1. destruct (N2 x I1). tauto.
Qed.

(** ** C24 *)

(** After any history exactly the registrations that count can be looked up:
    each in its own namespace by its own name, and nothing else. *)
Theorem C24_lookup_by_name : forall l k, accepts l k -> forall t n a,
  (forall h, In (t, h) k -> xe_name h = n -> parse_with_type (run_regs l) t n a = payload_of h a) /\
  ((forall h, In (t, h) k -> xe_name h <> n) -> parse_with_type (run_regs l) t n a = Err (XNotFound n)) /\
  (has_extension (run_regs l) t n = true <-> exists h, In (t, h) k /\ xe_name h = n).
Proof.
  intros l k Ha t n a. destruct (run_regs_holds l) as (k' & Ha' & Hh & Hu). rewrite (accepts_fun _ _ _ Ha' Ha) in *. clear k' Ha'.
  assert (Huniq : forall h h', In (t, h) k -> In (t, h') k -> xe_name h = xe_name h' -> h = h').
  { clear - Ha. induction Ha as [|l k th Ha IH Hn|]; intros h h' H1 H2 E; auto; [contradiction|].
    apply in_app_iff in H1, H2. destruct H1 as [H1|[H1|[]]], H2 as [H2|[H2|[]]]; auto; try subst th.
    - exfalso. apply (proj1 (Hn _ H1)). split; cbn; auto.
    - exfalso. apply (proj1 (Hn _ H2)). split; cbn; auto.
    - congruence. }
  unfold parse_with_type, has_extension. rewrite Hh.
  destruct (find (fun th => rkey_eqb (t, n) (fst th, xe_name (snd th))) k) as [[t1 h1]|] eqn:E; cbn [option_map snd].
  - apply find_some in E as [E1 E2]. apply rkey_eqb_eq in E2. cbn [fst snd] in E2. injection E2 as <- ->.
    split; [|split].
    + intros h Hi En. now rewrite (Huniq h h1 Hi E1 En).
    + intros Hno. exfalso. exact (Hno h1 E1 eq_refl).
    + split; auto. intros _. exists h1. auto.
  - assert (Hno : forall h, In (t, h) k -> xe_name h <> n).
    { intros h Hi En. rewrite find_none_iff in E. specialize (E _ Hi). cbn in E. rewrite En, rkey_eqb_refl in E. discriminate. }
    split; [|split]; auto.
    + intros h Hi En. exfalso. exact (Hno h Hi En).
    + split; [discriminate|]. intros (h & Hi & En). exfalso. exact (Hno h Hi En).
Qed.

(** A registration either fails, and nothing changes, or it succeeds: it clashes
    with nothing that counts, its handler answers to its name in its namespace,
    and every other name in every namespace behaves as before. *)
Theorem C24_register_atomic : forall l t h,
  match register t h (run_regs l) with
  | (Ok _, r) =>
      (forall a, parse_with_type r t (xe_name h) a = payload_of h a) /\
      has_extension (run_regs l) t (xe_name h) = false /\
      (forall t' n, (t', n) <> (t, xe_name h) ->
         has_extension r t' n = has_extension (run_regs l) t' n /\
         forall a, parse_with_type r t' n a = parse_with_type (run_regs l) t' n a) /\
      (forall t' d ctx, (t', any_url d) <> (t, xe_url h) ->
         decode_with_type r t' d ctx = decode_with_type (run_regs l) t' d ctx) /\
      (forall d ctx, any_url d = xe_url h ->
         decode_with_type r t d ctx = rmap (fun a => (xe_name h, a)) (arguments_of h d ctx) /\
         decode_with_type (run_regs l) t d ctx = Err (XNotFound (xe_url h)))
  | (Err _, r) =>
      r = run_regs l /\
      (has_extension (run_regs l) t (xe_name h) = true \/
       exists h' k, accepts l k /\ In (t, h') k /\ xe_url h' = xe_url h)
  | (Panic _, _) => False
  end.
Proof.
  intros l t h. destruct (run_regs_holds l) as (k & Ha & Hk). pose proof (register_cases k (run_regs l) t h Hk) as C.
  destruct (register t h (run_regs l)) as [[[]|e|p] r] eqn:E; cbn [fst snd] in C; [| |contradiction].
  - destruct C as [Hno [Hh' Hu']]. destruct Hk as [Hh Hu].
    assert (Fn : find (fun th => rkey_eqb (t, xe_name h) (fst th, xe_name (snd th))) k = None).
    { apply find_none_iff. intros x Hx. apply rkey_eqb_false. intros [= E1 E2]. apply (proj1 (Hno x Hx)). split; auto. }
    assert (Fu : find (fun th => rkey_eqb (t, xe_url h) (fst th, xe_url (snd th))) k = None).
    { apply find_none_iff. intros x Hx. apply rkey_eqb_false. intros [= E1 E2]. apply (proj2 (Hno x Hx)). split; auto. }
    assert (Gh : forall t' n, hget (t', n) (rg_handlers r) = if rkey_eqb (t', n) (t, xe_name h) then Some h else hget (t', n) (rg_handlers (run_regs l))).
    { intros t' n. rewrite Hh', Hh, find_snoc. cbn [fst snd]. destruct (rkey_eqb (t', n) (t, xe_name h)) eqn:E1.
      - apply rkey_eqb_eq in E1. injection E1 as -> ->. now rewrite Fn.
      - now destruct (find (fun th => rkey_eqb (t', n) (fst th, xe_name (snd th))) k). }
    assert (Gu : forall t' u, hget (t', u) (rg_urls r) = if rkey_eqb (t', u) (t, xe_url h) then Some (xe_name h) else hget (t', u) (rg_urls (run_regs l))).
    { intros t' u. rewrite Hu', Hu, find_snoc. cbn [fst snd]. destruct (rkey_eqb (t', u) (t, xe_url h)) eqn:E1.
      - apply rkey_eqb_eq in E1. injection E1 as -> ->. now rewrite Fu.
      - now destruct (find (fun th => rkey_eqb (t', u) (fst th, xe_url (snd th))) k). }
    repeat split.
    + intros a. unfold parse_with_type. now rewrite Gh, rkey_eqb_refl.
    + unfold has_extension. now rewrite Hh, Fn.
    + unfold has_extension. now rewrite Gh, (rkey_eqb_false _ _ H).
    + intros a. unfold parse_with_type. now rewrite Gh, (rkey_eqb_false _ _ H).
    + intros t' d ctx Hne. unfold decode_with_type. rewrite Gu, (rkey_eqb_false _ _ Hne).
      destruct (hget (t', any_url d) (rg_urls (run_regs l))) as [n|] eqn:En; auto. rewrite Gh.
      destruct (rkey_eqb (t', n) (t, xe_name h)) eqn:E1; auto. exfalso. apply rkey_eqb_eq in E1. injection E1 as -> ->.
      rewrite Hu in En. destruct (find (fun th => rkey_eqb (t, any_url d) (fst th, xe_url (snd th))) k) as [x|] eqn:Ex; [|discriminate]. cbn in En. apply find_some in Ex as [Ex1 Ex2].
      apply rkey_eqb_eq in Ex2. injection Ex2 as Ex2 Ex3. apply (proj1 (Hno x Ex1)). split; cbn; congruence.
    + unfold decode_with_type. rewrite H. now rewrite Gu, rkey_eqb_refl, Gh, rkey_eqb_refl.
    + unfold decode_with_type. rewrite H. now rewrite Hu, Fu.
  - destruct C as [(x & Hx & Hc) Hr]. split; auto. destruct Hc as [[S1 S2]|[S1 S2]]; cbn in S1, S2.
    + left. destruct (C24_lookup_by_name l k Ha t (xe_name h) xargs_default) as (_ & _ & Hi). apply Hi.
      destruct x as [t' h']. cbn in *. subst t'. eauto.
    + right. destruct x as [t' h']. cbn in *. subst t'. exists h', k. auto.
Qed.

(** ** C25 *)

(** A payload is decoded by the handler registered for its type URL in the
    requested namespace, under that handler's own name. *)
Theorem C25_decode_consistent : forall l t d ctx n a,
  decode_with_type (run_regs l) t d ctx = Ok (n, a) ->
  exists h, In (t, h) l /\ xe_url h = any_url d /\ xe_name h = n /\ arguments_of h d ctx = Ok a /\
    forall b, parse_with_type (run_regs l) t n b = payload_of h b.
Proof.
  intros l t d ctx n a H. destruct (run_regs_holds l) as (k & Ha & Hh & Hu).
  assert (Hin : forall x, In x k -> In x l).
  { clear - Ha. induction Ha; intros y Hy; auto; apply in_app_iff; [apply in_app_iff in Hy as [Hy|Hy]; auto|auto]. }
  unfold decode_with_type in H. rewrite Hu in H.
  destruct (find (fun th => rkey_eqb (t, any_url d) (fst th, xe_url (snd th))) k) as [[t1 h1]|] eqn:E1; [|discriminate].
  cbn [option_map snd] in H. apply find_some in E1 as [E1 E2]. apply rkey_eqb_eq in E2. cbn [fst snd] in E2.
  assert (t1 = t /\ any_url d = xe_url h1) as [-> E3] by (split; congruence).
  destruct (C24_lookup_by_name l k Ha t (xe_name h1) xargs_default) as (G & _ & Gi).
  assert (G' : forall b, parse_with_type (run_regs l) t (xe_name h1) b = payload_of h1 b).
  { intros b. destruct (C24_lookup_by_name l k Ha t (xe_name h1) b) as (G' & _). now apply G'. }
  assert (Gh : hget (t, xe_name h1) (rg_handlers (run_regs l)) = Some h1).
  { rewrite Hh. destruct (find (fun th => rkey_eqb (t, xe_name h1) (fst th, xe_name (snd th))) k) as [[t2 h2]|] eqn:E4.
    - cbn. apply find_some in E4 as [E4 E5]. apply rkey_eqb_eq in E5. cbn [fst snd] in E5.
      assert (t2 = t) by congruence. subst t2. assert (En : xe_name h1 = xe_name h2) by congruence. clear - Ha E1 E4 En.
      f_equal. induction Ha as [|l k th Ha IH Hn|]; auto; [contradiction|].
      apply in_app_iff in E1, E4. destruct E1 as [H1|[H1|[]]], E4 as [H2|[H2|[]]]; auto; try subst th.
      + exfalso. apply (proj1 (Hn _ H1)). split; cbn; auto.
      + exfalso. apply (proj1 (Hn _ H2)). split; cbn; auto.
      + congruence.
    - exfalso. rewrite find_none_iff in E4. specialize (E4 _ E1). cbn in E4. now rewrite rkey_eqb_refl in E4. }
  rewrite Gh in H. apply rbind_ok in H as (a' & H1 & H2). assert (n = xe_name h1 /\ a = a') as [-> ->] by (split; congruence).
  exists h1. repeat split; auto.
Qed.

(** What a registered handler produced under its own URL is decoded by that
    handler again. *)
Theorem C25_parse_then_decode : forall l t n a d ctx,
  parse_with_type (run_regs l) t n a = Ok d ->
  exists h, In (t, h) l /\ xe_name h = n /\ payload_of h a = Ok d /\
    (any_url d = xe_url h ->
     decode_with_type (run_regs l) t d ctx = rmap (fun b => (n, b)) (arguments_of h d ctx)).
Proof.
  intros l t n a d ctx H. destruct (run_regs_holds l) as (k & Ha & Hh & Hu).
  assert (Hin : forall x, In x k -> In x l).
  { clear - Ha. induction Ha; intros y Hy; auto; apply in_app_iff; [apply in_app_iff in Hy as [Hy|Hy]; auto|auto]. }
  unfold parse_with_type in H. rewrite Hh in H.
  destruct (find (fun th => rkey_eqb (t, n) (fst th, xe_name (snd th))) k) as [[t1 h]|] eqn:E1; [|discriminate].
  cbn [option_map snd] in H. pose proof E1 as E0. apply find_some in E1 as [E1 E2]. apply rkey_eqb_eq in E2. cbn [fst snd] in E2.
  assert (t1 = t /\ n = xe_name h) as [-> ->] by (split; congruence).
  exists h. repeat split; auto. intros Hurl. unfold decode_with_type. rewrite Hurl, Hu.
  destruct (find (fun th => rkey_eqb (t, xe_url h) (fst th, xe_url (snd th))) k) as [[t2 h2]|] eqn:E4.
  - cbn [option_map snd]. apply find_some in E4 as [E4 E5]. apply rkey_eqb_eq in E5. cbn [fst snd] in E5.
    assert (t2 = t) by congruence. subst t2. assert (En : xe_url h = xe_url h2) by congruence.
    assert (Eh : h = h2).
    { clear - Ha E1 E4 En. induction Ha as [|l k th Ha IH Hn|]; auto; [contradiction|].
      apply in_app_iff in E1, E4. destruct E1 as [H1|[H1|[]]], E4 as [H2|[H2|[]]]; auto; try subst th.
      + exfalso. apply (proj2 (Hn _ H1)). split; cbn; auto.
      + exfalso. apply (proj2 (Hn _ H2)). split; cbn; auto.
      + congruence. }
    subst h2. rewrite Hh, E0. cbn [option_map snd]. change (textify_detail h d ctx) with (arguments_of h d ctx). destruct (arguments_of h d ctx); reflexivity.
  - exfalso. rewrite find_none_iff in E4. specialize (E4 _ E1). cbn in E4. now rewrite rkey_eqb_refl in E4.
Qed.

(** ** C26 *)

Lemma run_prog_spec {X} (p : prog X) a : forall s,
  fst (run_prog p a s) = answer p a /\
  (ac_positional (snd (run_prog p a s)) = true <-> ac_positional s = true \/ In QPositional (questions p a)) /\
  (forall n v, imap_get n (xa_named a) = Some v ->
     (In n (ac_handled (snd (run_prog p a s))) <-> In n (ac_handled s) \/ In (QNamed n) (questions p a))).
Proof.
  induction p as [x|k IH|k IH|n k IH]; intros s; cbn [run_prog answer questions].
  - cbn [fst snd In]. repeat split; intros; auto; intuition.
  - destruct (IH (xa_positional a) (mk_access (ac_handled s) true)) as (I1 & I2 & I3). cbn [ac_positional ac_handled] in *.
    split; [exact I1|]. split; [rewrite I2; cbn [In]; intuition|]. intros n v Hn. rewrite (I3 n v Hn). cbn [In]. intuition congruence.
  - destruct (IH (xa_columns a) s) as (I1 & I2 & I3). split; [exact I1|]. cbn [In]. split; [rewrite I2; intuition congruence|].
    intros n v Hn. rewrite (I3 n v Hn). intuition congruence.
  - destruct (IH (imap_get n (xa_named a)) (match imap_get n (xa_named a) with Some _ => mk_access (n :: ac_handled s) (ac_positional s) | None => s end))
      as (I1 & I2 & I3). split; [exact I1|]. cbn [In]. split.
    + rewrite I2. destruct (imap_get n (xa_named a)); cbn [ac_positional]; intuition congruence.
    + intros m v Hm. rewrite (I3 m v Hm). destruct (imap_get n (xa_named a)) eqn:En; cbn [ac_handled In].
      * intuition congruence.
      * assert (m <> n) by congruence. intuition congruence.
Qed.
Lemma imap_get_in {V} k (v : V) m : In (k, v) m -> exists v', imap_get k m = Some v'.
Proof.
  induction m as [|[k' v'] m IH]; [contradiction|]. intros [[= -> ->]|H]; cbn; [rewrite streqb_refl; eauto|].
  destruct (streqb k k'); eauto.
Qed.

(** Decoding succeeds exactly when the handler does and has asked for every
    named argument given, and for the positional ones if there are any. *)
Theorem C26_no_argument_ignored : forall X (p : prog X) a v,
  args_parse p a = Ok v <->
  answer p a = Ok v /\
  (forall n w, In (n, w) (xa_named a) -> In (QNamed n) (questions p a)) /\
  (xa_positional a = [] \/ In QPositional (questions p a)).
Proof.
  intros X p a v. unfold args_parse. destruct (run_prog_spec p a access_new) as (R1 & R2 & R3).
  destruct (run_prog p a access_new) as [r s]. cbn [fst snd access_new ac_positional ac_handled] in *. subst r.
  assert (Hp : ac_positional s = true <-> In QPositional (questions p a)) by (rewrite R2; intuition discriminate).
  assert (Hn : forall n w, In (n, w) (xa_named a) -> (In n (ac_handled s) <-> In (QNamed n) (questions p a))).
  { intros n w Hi. destruct (imap_get_in _ _ _ Hi) as (w' & Hw). rewrite (R3 n w' Hw). cbn. intuition. }
  assert (Hf : access_finish a s = Ok tt <->
    (forall n w, In (n, w) (xa_named a) -> In n (ac_handled s)) /\ (xa_positional a = [] \/ ac_positional s = true)).
  { unfold access_finish. set (fl := filter _ _).
    assert (Hfl : fl = [] <-> (forall n w, In (n, w) (xa_named a) -> In n (ac_handled s))).
    { unfold fl. clear. split.
      - intros H n w Hi. destruct (existsb (streqb n) (ac_handled s)) eqn:E.
        + apply existsb_exists in E as (y & Hy & E). apply streqb_eq in E. now subst.
        + assert (Hn : In n []); [|contradiction Hn]. rewrite <- H. apply filter_In. split; [|now rewrite E].
          apply in_map_iff. now exists (n, w).
      - intros H. destruct (filter _ _) as [|y ys] eqn:E; auto. assert (Hy : In y (y :: ys)) by now left. rewrite <- E in Hy.
        apply filter_In in Hy as [Hy1 Hy2]. apply in_map_iff in Hy1 as ([n w] & <- & Hi). cbn [fst] in *.
        rewrite (proj2 (existsb_exists _ _)) in Hy2; [discriminate|]. exists n. split; [eauto|apply streqb_refl]. }
    rewrite <- Hfl. clear. clearbody fl. destruct (ac_positional s); cbn [negb andb].
    - destruct fl; split; auto; [intros; discriminate|intros [? _]; discriminate].
    - destruct (xa_positional a); cbn [length Nat.eqb negb].
      + destruct fl; split; auto; [intros; discriminate|intros [? _]; discriminate].
      + split; [discriminate|intros [_ [?|?]]; discriminate]. }
  split.
  - intros H. apply rbind_ok in H as (v' & H1 & H2). apply rbind_ok in H2 as ([] & H2 & H3).
    assert (v' = v) by congruence. subst v'. apply Hf in H2 as [H2 H4]. split; auto. split.
    + intros n w Hi. apply (Hn n w Hi). eauto.
    + destruct H4; auto. right. now apply Hp.
  - intros (H1 & H2 & H3). rewrite H1. cbn [rbind]. rewrite (proj2 Hf); [reflexivity|]. split.
    + intros n w Hi. apply (Hn n w Hi). eauto.
    + destruct H3; auto. right. now apply Hp.
Qed.

(** ** Examples *)

(** A handler with a positional path and an optional limit. *)
Definition ex_handler (name url : string) : extension :=
  mk_extension (list N * option Z) (L name) (L url)
    (PPositional (fun ps =>
       match ps with
       | [XString s] => get_named as_i64 (L "limit") (fun z => PReturn (Ok (s, z)))
       | _ => PReturn (Err (XInvalidArgument "path"))
       end))
    (fun v _ => Ok (mk_xargs [XString (fst v)] (match snd v with Some z => [(L "limit", XInteger z)] | None => [] end) []))
    (fun v => Ok (mk_any (L url) (match snd v with Some z => show_Z z | None => [] end ++ L ":" ++ fst v)))
    (fun d => match split_at_char 58 (any_value d) with
              | Some ([], s) => Ok (s, None)
              | Some (z, s) => Ok (s, parse_i64 z)
              | None => Err XDecodeFailed
              end).
Definition ex_history : list (xtype * extension) :=
  [(XtRelation, ex_handler "Scan" "u/1"); (XtTable, ex_handler "Scan" "u/2");
   (XtRelation, ex_handler "Scan" "u/3"); (XtRelation, ex_handler "Other" "u/1"); (XtEnhancement, ex_handler "Hint" "u/1")].
Definition ex_accepted : list (xtype * extension) :=
  [(XtRelation, ex_handler "Scan" "u/1"); (XtTable, ex_handler "Scan" "u/2"); (XtEnhancement, ex_handler "Hint" "u/1")].
(** The third and fourth registrations clash with the first. *)
Example ex_accepts : accepts ex_history ex_accepted.
Proof.
  apply (accepts_new [_; _; _; _] [_; _]).
  - apply (accepts_clash [_; _; _] [_; _] _ (XtRelation, ex_handler "Scan" "u/1")); [|now left|right; split; reflexivity].
    apply (accepts_clash [_; _] [_; _] _ (XtRelation, ex_handler "Scan" "u/1")); [|now left|left; split; reflexivity].
    apply (accepts_new [_] [_]); [apply (accepts_new [] []); [constructor|contradiction]|].
    intros x [<-|[]]. split; intros [E _]; discriminate.
  - intros x [<-|[<-|[]]]; split; intros [E _]; discriminate.
Qed.
Definition ex_args : xargs := mk_xargs [XString (L "a/b")] [(L "limit", XInteger 7)] [].
Example ex_parse : parse_with_type (run_regs ex_history) XtRelation (L "Scan") ex_args = Ok (mk_any (L "u/1") (L "7:a/b")).
Proof. vm_compute. reflexivity. Qed.
Example ex_decode : decode_with_type (run_regs ex_history) XtRelation (mk_any (L "u/1") (L "7:a/b")) [] = Ok (L "Scan", ex_args).
Proof. vm_compute. reflexivity. Qed.
Example ex_other_namespace : decode_with_type (run_regs ex_history) XtTable (mk_any (L "u/1") (L "7:a/b")) [] = Err (XNotFound (L "u/1")).
Proof. vm_compute. reflexivity. Qed.
(** A named argument the handler does not know makes it fail. *)
Example ex_unknown_argument :
  args_parse (xe_from_args (ex_handler "Scan" "u/1")) (mk_xargs [XString (L "a")] [(L "offset", XInteger 1)] []) =
  Err (XInvalidArgument "Unknown named arguments").
Proof. vm_compute. reflexivity. Qed.
