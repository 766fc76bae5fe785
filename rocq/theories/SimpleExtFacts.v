(** Proofs about the extension table and about references to it. *)
From Coq Require Import String List NArith ZArith Bool Lia.
From Verif Require Import Base BaseFacts OMap SimpleExt Out Anchors.
Import ListNotations.

Lemma kind_eqb_eq a b : kind_eqb a b = true <-> a = b.
Proof. destruct a, b; cbn; split; congruence. Qed.
Lemma kind_eqb_refl a : kind_eqb a a = true.
Proof. now destruct a. Qed.

Lemma ord_kind : ord cmp_kind.
Proof.
  destruct ord_N as [E S T]. split; unfold cmp_kind.
  - intros a b. rewrite E. split; [|now intros ->]. destruct a, b; cbn; congruence.
  - intros; apply S.
  - intros a b c; apply T.
Qed.
Lemma ord_key : ord cmp_key.
Proof. apply ord_pair; [apply ord_N | apply ord_kind]. Qed.

(** ** Well-formed tables *)

Definition wf_exts (e : exts) : Prop :=
  osorted N.compare (e_urns e) /\ osorted cmp_key (e_decls e).

Lemma wf_empty : wf_exts exts_empty.
Proof. split; constructor. Qed.

Lemma wf_add_urn e u a : wf_exts e -> wf_exts (fst (add_extension_urn e u a)).
Proof.
  intros [H1 H2]. unfold add_extension_urn. destruct (urn_get e a); [split; auto|].
  split; cbn; auto. apply oput_sorted; auto using ord_N.
Qed.

Lemma wf_add e k u a n : wf_exts e -> wf_exts (fst (add_extension e k u a n)).
Proof.
  intros [H1 H2]. unfold add_extension. destruct (norm_name k n); [|split; auto].
  destruct (decl_get e k a) as [[? ?]|]; [split; auto|].
  split; cbn; auto. apply oput_sorted; auto using ord_key.
Qed.

Lemma wf_from_urns l e : wf_exts e -> wf_exts (fst (from_urns e l)).
Proof.
  revert e; induction l as [|u l IH]; intros e H; cbn; auto.
  pose proof (wf_add_urn e (u_urn u) (u_anchor u) H).
  destruct (add_extension_urn e (u_urn u) (u_anchor u)) as [e1 er]. cbn in *.
  specialize (IH e1 H0). destruct (from_urns e1 l). auto.
Qed.

Lemma wf_from_decls l e : wf_exts e -> wf_exts (fst (from_decls e l)).
Proof.
  revert e; induction l as [|[d|] l IH]; intros e H; cbn; auto.
  - pose proof (wf_add e (d_kind d) (d_urn d) (d_anchor d) (d_name d) H).
    destruct (add_extension e (d_kind d) (d_urn d) (d_anchor d) (d_name d)) as [e1 er]. cbn in *.
    specialize (IH e1 H0). destruct (from_decls e1 l). auto.
  - specialize (IH e H). destruct (from_decls e l). auto.
Qed.

Lemma wf_from_extensions us ds : wf_exts (fst (from_extensions us ds)).
Proof.
  unfold from_extensions. pose proof (wf_from_urns us exts_empty wf_empty) as H.
  destruct (from_urns exts_empty us) as [e1 er1]. cbn in H.
  pose proof (wf_from_decls ds e1 H) as H2. destruct (from_decls e1 ds). auto.
Qed.

Lemma decl_get_in e k a u n : wf_exts e ->
  decl_get e k a = Some (u, n) <-> In ((a, k), (u, n)) (e_decls e).
Proof. intros [_ H]. apply oget_in; auto using ord_key. Qed.

Lemma urn_get_in e a u : wf_exts e -> urn_get e a = Some u <-> In (a, u) (e_urns e).
Proof. intros [H _]. apply oget_in; auto using ord_N. Qed.

(** ** Uniqueness flags *)

(** Another declaration of kind [k], with a name satisfying [f]. *)
Definition other_with (e : exts) (k : kind) (a : N) (f : list N -> bool) : Prop :=
  exists a' u' n', a' <> a /\ decl_get e k a' = Some (u', n') /\ f n' = true.

Definition is_other (k : kind) (a : N) (f : list N -> bool) (x : (N * kind) * (N * list N)) : bool :=
  kind_eqb (snd (fst x)) k && negb (fst (fst x) =? a)%N && f (snd (snd x)).

Lemma other_existsb e k a f : wf_exts e ->
  existsb (is_other k a f) (e_decls e) = true <-> other_with e k a f.
Proof.
  intros W. rewrite existsb_exists. split.
  - intros ([[a' k'] [u' n']] & Hin & H). unfold is_other in H; cbn in H; bool_hyps.
    apply kind_eqb_eq in H; subst k'. exists a', u', n'. split.
    + apply N.eqb_neq. auto.
    + split; auto. now apply decl_get_in.
  - intros (a' & u' & n' & Hn & Hd & Hf). exists ((a', k), (u', n')). split.
    + now apply decl_get_in.
    + unfold is_other; cbn. rewrite kind_eqb_refl, Hf. cbn.
      rewrite (proj2 (N.eqb_neq _ _) Hn). auto.
Qed.

Lemma name_unique_loop_spec k a n l : forall found other,
  (forall u' n', In ((a, k), (u', n')) l -> n' = n) ->
  exists f o, name_unique_loop k a n found other l = Ok (f, o) /\
    (f = true <-> found = true \/ exists u' n', In ((a, k), (u', n')) l) /\
    (f = true -> o = other || existsb (is_other k a (fun x => streqb x n)) l).
Proof.
  induction l as [|[[a' k'] [u' n']] l IH]; intros found other Hl.
  - cbn. exists found, other. split; auto. split; [|intros; now rewrite orb_false_r].
    split; auto. intros [H|(? & ? & [])]; auto.
  - assert (Hl' : forall u0 n0, In ((a, k), (u0, n0)) l -> n0 = n) by (intros; eapply Hl; right; eauto).
    cbn [name_unique_loop existsb]. unfold is_other at 1. cbn [fst snd].
    destruct (kind_eqb k' k) eqn:Ek; cbn [negb andb].
    + apply kind_eqb_eq in Ek; subst k'. destruct (N.eqb_spec a' a) as [->|Ha]; cbn [negb andb].
      * assert (n' = n) as -> by (eapply Hl; left; reflexivity). rewrite streqb_refl.
        destruct (IH true other Hl') as (f & o & E & Hf & Ho). exists f, o. split; auto. split; auto.
        rewrite Hf. split; auto. intros _. right. exists u', n. now left.
      * destruct (streqb n' n) eqn:En; cbn [negb].
        -- destruct found.
           ++ exists true, true. split; auto. split; [|now rewrite orb_true_r]. tauto.
           ++ destruct (IH false true Hl') as (f & o & E & Hf & Ho). exists f, o. split; auto.
              split; [|intros H; rewrite (Ho H); now rewrite orb_true_r].
              rewrite Hf. split; (intros [H|(u0 & n0 & H)]; [left; auto|right]).
              ** exists u0, n0. now right.
              ** destruct H as [[= -> _ _]|H]; [congruence|]. eauto.
        -- destruct (IH found other Hl') as (f & o & E & Hf & Ho). exists f, o. split; auto.
           split; auto. rewrite Hf. split; (intros [H|(u0 & n0 & H)]; [left; auto|right]).
           ++ exists u0, n0. now right.
           ++ destruct H as [[= -> _ _]|H]; [congruence|]. eauto.
    + destruct (IH found other Hl') as (f & o & E & Hf & Ho). exists f, o. split; auto.
      split; auto. rewrite Hf. split; (intros [H|(u0 & n0 & H)]; [left; auto|right]).
      * exists u0, n0. now right.
      * destruct H as [[= _ -> _ _]|H]; [|eauto]. rewrite kind_eqb_refl in Ek. discriminate.
Qed.

Lemma is_name_unique_spec e k a u n : wf_exts e -> decl_get e k a = Some (u, n) ->
  is_name_unique e k a n = Ok (negb (existsb (is_other k a (fun x => streqb x n)) (e_decls e))).
Proof.
  intros W Hd. unfold is_name_unique.
  destruct (name_unique_loop_spec k a n (e_decls e) false false) as (f & o & E & Hf & Ho).
  { intros u' n' Hin. apply decl_get_in in Hin; auto. congruence. }
  rewrite E. cbn. assert (f = true) as ->.
  { apply Hf. right. exists u, n. now apply decl_get_in. }
  now rewrite (Ho eq_refl).
Qed.

Lemma is_base_name_unique_spec e k a u n : wf_exts e -> decl_get e k a = Some (u, n) ->
  is_base_name_unique e k a =
    Ok (negb (existsb (is_other k a (fun x => streqb (cn_base x) (cn_base n))) (e_decls e))).
Proof.
  intros W Hd. unfold is_base_name_unique, find_by_anchor. rewrite Hd. reflexivity.
Qed.

Definition uniq (e : exts) (k : kind) (a : N) (n : list N) : bool :=
  negb (existsb (is_other k a (fun x => streqb x n)) (e_decls e)).
Definition base_uniq (e : exts) (k : kind) (a : N) (n : list N) : bool :=
  negb (existsb (is_other k a (fun x => streqb (cn_base x) (cn_base n))) (e_decls e)).

Lemma lookup_function_spec e a u n : wf_exts e -> decl_get e KFunction a = Some (u, n) ->
  lookup_function e a =
    Ok (mk_resolved a u n (base_uniq e KFunction a n) (uniq e KFunction a n)).
Proof.
  intros W Hd. unfold lookup_function, find_by_anchor. rewrite Hd. cbn.
  rewrite (is_name_unique_spec _ _ _ _ _ W Hd). cbn.
  rewrite (is_base_name_unique_spec _ _ _ _ _ W Hd). reflexivity.
Qed.

Lemma lookup_function_none e a : decl_get e KFunction a = None ->
  lookup_function e a = Err (MissingAnchor KFunction a).
Proof. intros Hd. unfold lookup_function, find_by_anchor. now rewrite Hd. Qed.

Lemma base_uniq_uniq e k a n : base_uniq e k a n = true -> uniq e k a n = true.
Proof.
  unfold base_uniq, uniq. rewrite !negb_true_iff.
  intros H. destruct (existsb (is_other k a (fun x => streqb x n)) (e_decls e)) eqn:E; auto.
  apply existsb_exists in E as (x & Hx & Hp).
  assert (existsb (is_other k a (fun x => streqb (cn_base x) (cn_base n))) (e_decls e) = true); [|congruence].
  apply existsb_exists. exists x. split; auto. unfold is_other in *.
  apply andb_true_iff in Hp as [-> Hp]. apply streqb_eq in Hp. rewrite Hp. now rewrite streqb_refl.
Qed.

(** ** Anchors by name *)

Lemma anchors_where_in e k f a : wf_exts e ->
  In a (anchors_where e k f) <-> exists u n, decl_get e k a = Some (u, n) /\ f n = true.
Proof.
  intros W. unfold anchors_where. rewrite in_map_iff. split.
  - intros ([[a' k'] [u n]] & E & Hin). cbn in E; subst a'. apply filter_In in Hin as [Hin H].
    cbn in H; bool_hyps. apply kind_eqb_eq in H; subst. exists u, n. split; auto. now apply decl_get_in.
  - intros (u & n & Hd & Hf). exists ((a, k), (u, n)). split; auto. apply filter_In. split.
    + now apply decl_get_in.
    + cbn. now rewrite kind_eqb_refl, Hf.
Qed.

Lemma anchors_where_nodup e k f : wf_exts e -> NoDup (anchors_where e k f).
Proof.
  intros [_ W]. unfold anchors_where.
  pose proof (osorted_nodup _ ord_key _ W) as Hn. clear W.
  induction (e_decls e) as [|[[a k'] [u n]] l IH]; cbn; [constructor|].
  cbn in Hn. inversion Hn as [|? ? Hni Hn']; subst.
  destruct (kind_eqb k' k && f n) eqn:E; cbn; auto. constructor; auto.
  apply andb_true_iff in E as [E _]. apply kind_eqb_eq in E; subst k'.
  intros Hin. apply in_map_iff in Hin as ([[a' k''] [u' n']] & E & Hin). cbn in E; subst a'.
  apply filter_In in Hin as [Hin H]. cbn in H. bool_hyps. apply kind_eqb_eq in H; subst k''.
  apply Hni. apply in_map_iff. exists ((a, k), (u', n')). auto.
Qed.

Lemma nodup_single {A} (l : list A) a : NoDup l -> In a l -> (forall b, In b l -> b = a) -> l = [a].
Proof.
  intros Hn Ha Hb. destruct l as [|x l]; [destruct Ha|].
  assert (x = a) as -> by (apply Hb; now left). f_equal. destruct l as [|y l]; auto.
  assert (y = a) as -> by (apply Hb; right; now left). inversion Hn as [|? ? H]; subst.
  exfalso. apply H. now left.
Qed.

Lemma anchors_where_single e k f a : wf_exts e ->
  anchors_where e k f = [a] <->
    (exists u n, decl_get e k a = Some (u, n) /\ f n = true) /\ ~ other_with e k a f.
Proof.
  intros W. split.
  - intros E. split.
    + apply anchors_where_in; auto. rewrite E. now left.
    + intros (a' & u' & n' & Hn & Hd & Hf).
      assert (In a' (anchors_where e k f)) by (apply anchors_where_in; eauto).
      rewrite E in H. destruct H as [|[]]. congruence.
  - intros [(u & n & Hd & Hf) Ho]. apply nodup_single.
    + now apply anchors_where_nodup.
    + apply anchors_where_in; eauto.
    + intros b Hb. apply anchors_where_in in Hb as (u' & n' & Hd' & Hf'); auto.
      destruct (N.eq_dec b a); auto. exfalso. apply Ho. exists b, u', n'. auto.
Qed.

Lemma find_by_name_ok e k name a : wf_exts e ->
  find_by_name e k name = Ok a <->
    (exists u, decl_get e k a = Some (u, name)) /\ ~ other_with e k a (fun n => streqb n name).
Proof.
  intros W. unfold find_by_name.
  assert (H : find_by_name e k name = Ok a <-> anchors_where e k (fun n => streqb n name) = [a]).
  { unfold find_by_name. destruct (anchors_where e k (fun n => streqb n name)) as [|x [|y l]];
      split; congruence. }
  unfold find_by_name in H. rewrite H, anchors_where_single by auto. split.
  - intros [(u & n & Hd & Hf) Ho]. apply streqb_eq in Hf; subst. eauto.
  - intros [(u & Hd) Ho]. split; auto. exists u, name. split; auto. apply streqb_refl.
Qed.

Lemma find_by_base_name_ok e k base a : wf_exts e ->
  find_by_base_name e k base = Ok a <->
    (exists u n, decl_get e k a = Some (u, n) /\ cn_matches n base = true) /\
    ~ other_with e k a (fun n => cn_matches n base).
Proof.
  intros W. rewrite <- anchors_where_single by auto. unfold find_by_base_name.
  destruct (anchors_where e k (fun n => cn_matches n base)) as [|x [|y l]]; split; congruence.
Qed.

(** ** Names *)

Lemma cn_base_no_colon n : contains_char c_colon (cn_base n) = false.
Proof.
  unfold cn_base. destruct (split_at_char c_colon n) as [[b r]|] eqn:E.
  - now apply split_at_char_spec in E as [_ H].
  - now apply split_at_char_none.
Qed.

Lemma cn_base_id n : contains_char c_colon n = false -> cn_base n = n.
Proof. intros H. unfold cn_base. apply split_at_char_none in H. now rewrite H. Qed.

Lemma cn_matches_base n b : contains_char c_colon b = false -> cn_matches n b = streqb (cn_base n) b.
Proof. intros H. unfold cn_matches. now rewrite H. Qed.

Lemma cn_matches_self n : cn_matches n n = true.
Proof.
  unfold cn_matches. destruct (contains_char c_colon n) eqn:E; [apply streqb_refl|].
  rewrite cn_base_id by auto. apply streqb_refl.
Qed.

(** ** What is written for a reference *)

(** The name and the anchor that a reference shows. *)
Definition shown_name (op : options) (e : exts) (k : kind) (a : N) (n : list N) : list N :=
  match op_anchors op with
  | VAlways => n
  | VRequired => match k with KFunction => if base_uniq e k a n then cn_base n else n
                 | _ => cn_base n end
  | VNever => cn_base n
  end.
Definition shown_anchor (op : options) (e : exts) (k : kind) (a : N) (n : list N) : option N :=
  match op_anchors op with
  | VAlways => Some a
  | VRequired =>
      if negb (uniq e k a n)
         || (match k with KFunction => negb (contains_char c_colon n) && negb (base_uniq e k a n)
             | _ => false end)
      then Some a else None
  | VNever => None
  end.
Definition anchor_text (o : option N) : list N :=
  match o with Some a => L "#" ++ show_N a | None => [] end.

Lemma na_lookup_spec e k a u n : wf_exts e -> decl_get e k a = Some (u, n) ->
  na_lookup e k a =
    mk_na (Some n) onil a (uniq e k a n)
      (match k with KFunction => base_uniq e k a n | _ => true end).
Proof.
  intros W Hd. unfold na_lookup. destruct k.
  - rewrite (lookup_function_spec _ _ _ _ W Hd). reflexivity.
  - unfold find_by_anchor. rewrite Hd. now rewrite (is_name_unique_spec _ _ _ _ _ W Hd).
  - unfold find_by_anchor. rewrite Hd. now rewrite (is_name_unique_spec _ _ _ _ _ W Hd).
Qed.

Lemma ref_out_spec op e k a u n : wf_exts e -> decl_get e k a = Some (u, n) ->
  ref_out op e k a = txt (shown_name op e k a n ++ anchor_text (shown_anchor op e k a n)).
Proof.
  intros W Hd. unfold ref_out. rewrite (na_lookup_spec _ _ _ _ _ W Hd).
  unfold na_out, shown_name, shown_anchor, anchor_out, anchor_text.
  cbn [na_name na_fail na_anchor na_unique na_base_unique].
  unfold oapp, onil, txt; cbn.
  destruct (op_anchors op), k; cbn;
    destruct (contains_char c_colon n);
    repeat match goal with
           | |- context [uniq e ?k a n] => destruct (uniq e k a n)
           | |- context [base_uniq e ?k a n] => destruct (base_uniq e k a n)
           end; cbn; rewrite ?app_nil_r; reflexivity.
Qed.

Lemma ref_out_missing op e k a : decl_get e k a = None ->
  o_errs (ref_out op e k a) = [FLookup (MissingAnchor k a)].
Proof.
  intros Hd. unfold ref_out, na_lookup. destruct k.
  - rewrite lookup_function_none by auto. cbn. unfold anchor_out. now destruct (op_anchors op).
  - unfold find_by_anchor. rewrite Hd. cbn. unfold anchor_out. now destruct (op_anchors op).
  - unfold find_by_anchor. rewrite Hd. cbn. unfold anchor_out. now destruct (op_anchors op).
Qed.

(** ** Reading the reference back *)

Lemma resolve_shown op e a u n : wf_exts e -> op_anchors op <> VNever ->
  decl_get e KFunction a = Some (u, n) ->
  exists r, resolve_function e (shown_name op e KFunction a n) (shown_anchor op e KFunction a n) = Ok r
            /\ rf_anchor r = a /\ rf_urn r = u /\ rf_name r = n.
Proof.
  intros W Hop Hd.
  exists (mk_resolved a u n (base_uniq e KFunction a n) (uniq e KFunction a n)).
  split; [|repeat split].
  unfold resolve_function, shown_name, shown_anchor.
  destruct (op_anchors op); [congruence| |].
  - destruct (base_uniq e KFunction a n) eqn:Eb.
    + rewrite (base_uniq_uniq _ _ _ _ Eb). rewrite andb_false_r. cbn.
      rewrite cn_base_no_colon.
      assert (find_by_base_name e KFunction (cn_base n) = Ok a) as ->.
      { apply find_by_base_name_ok; auto. split.
        - exists u, n. split; auto. rewrite cn_matches_base by apply cn_base_no_colon. apply streqb_refl.
        - intros (a' & u' & n' & Hn & Hd' & Hm). unfold base_uniq in Eb. apply negb_true_iff in Eb.
          assert (existsb (is_other KFunction a (fun x => streqb (cn_base x) (cn_base n))) (e_decls e) = true);
            [|congruence].
          apply other_existsb; auto. exists a', u', n'. repeat split; auto.
          now rewrite cn_matches_base in Hm by apply cn_base_no_colon. }
      cbn. rewrite (lookup_function_spec _ _ _ _ W Hd). now rewrite Eb, (base_uniq_uniq _ _ _ _ Eb).
    + destruct (uniq e KFunction a n) eqn:Eu; cbn.
      * destruct (contains_char c_colon n) eqn:Ec; cbn.
        -- assert (find_by_name e KFunction n = Ok a) as ->.
           { apply find_by_name_ok; auto. split; eauto.
             intros H. apply other_existsb in H; auto. unfold uniq in Eu. apply negb_true_iff in Eu. congruence. }
           cbn. rewrite (lookup_function_spec _ _ _ _ W Hd). now rewrite Eb, Eu.
        -- unfold find_by_anchor. rewrite Hd. cbn. rewrite cn_matches_self. cbn.
           rewrite (lookup_function_spec _ _ _ _ W Hd). now rewrite Eb, Eu.
      * unfold find_by_anchor. rewrite Hd. cbn. rewrite cn_matches_self. cbn.
        rewrite (lookup_function_spec _ _ _ _ W Hd). now rewrite Eb, Eu.
  - unfold find_by_anchor. rewrite Hd. cbn. rewrite cn_matches_self. cbn.
    now rewrite (lookup_function_spec _ _ _ _ W Hd).
Qed.

Lemma gva_function_shown op e a u n : wf_exts e -> op_anchors op <> VNever ->
  decl_get e KFunction a = Some (u, n) ->
  get_and_validate_anchor e KFunction (shown_anchor op e KFunction a n) (shown_name op e KFunction a n) = Ok a.
Proof.
  intros W Hop Hd. destruct (resolve_shown op e a u n W Hop Hd) as (r & E & Ha & _).
  unfold get_and_validate_anchor. rewrite E. cbn. now rewrite Ha.
Qed.

(** Types and variations: the stored name must have no colon, since only the
    part before it is written. *)
Lemma gva_other_shown op e k a u n : wf_exts e -> op_anchors op <> VNever -> k <> KFunction ->
  contains_char c_colon n = false ->
  decl_get e k a = Some (u, n) ->
  get_and_validate_anchor e k (shown_anchor op e k a n) (shown_name op e k a n) = Ok a.
Proof.
  intros W Hop Hk Hc Hd. unfold get_and_validate_anchor, shown_anchor, shown_name.
  rewrite cn_base_id by auto.
  assert (Hname : uniq e k a n = true -> find_by_name e k n = Ok a).
  { intros Hu. apply find_by_name_ok; auto. split; eauto.
    intros H. apply other_existsb in H; auto. unfold uniq in Hu. apply negb_true_iff in Hu. congruence. }
  destruct (op_anchors op); [congruence| |].
  - destruct k; [congruence| |];
      match goal with |- context [uniq e ?k a n] => destruct (uniq e k a n) eqn:Eu end; cbn.
    + now rewrite Hname.
    + unfold find_by_anchor. rewrite Hd. cbn. now rewrite streqb_refl.
    + now rewrite Hname.
    + unfold find_by_anchor. rewrite Hd. cbn. now rewrite streqb_refl.
  - destruct k; [congruence| |]; unfold find_by_anchor; rewrite Hd; cbn; now rewrite streqb_refl.
Qed.
