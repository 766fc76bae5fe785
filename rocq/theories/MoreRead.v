(** What has a meaning keeps it when there are more declarations and registrations. *)
From Coq Require Import String List NArith ZArith Bool Lia.
From Verif Require Import Base BaseFacts Names OMap SimpleExt SimpleExtFacts Types TypesFacts Literals Exprs ExtArgs Registry SpecRegistry Rels
  RelGrammar Tree TreeFacts CrashFacts SpecMeaning SpecText SpecMore.
Import ListNotations.
Local Open Scope list_scope.
Local Open Scope nat_scope.

Lemma Forall2_mono_in {A B} (P Q : A -> B -> Prop) l m : Forall (fun x => forall y, P x y -> Q x y) l -> Forall2 P l m -> Forall2 Q l m.
Proof. intros H K. induction K; inversion H; subst; constructor; auto. Qed.
Lemma Forall2_mono {A B} (P Q : A -> B -> Prop) l m : (forall x y, P x y -> Q x y) -> Forall2 P l m -> Forall2 Q l m.
Proof. intros H K. induction K; constructor; auto. Qed.

Lemma base_exists n : exists b, base_name n b.
Proof.
  induction n as [|c n (b & IH)].
  - exists []. left. split; auto.
  - destruct (N.eq_dec c 58) as [->|Hc].
    + exists []. right. exists n. split; auto.
    + exists (c :: b). destruct IH as [[-> H]|(sig & -> & H)].
      * left. split; auto. intros [E|E]; [congruence|auto].
      * right. exists sig. split; auto. intros [E|E]; [congruence|auto].
Qed.

Section Refs.
  Context (e e' : exts) (M : more_declared e e').
  Lemma new_name k a u n a' u' n' : decl_get e k a = Some (u, n) -> decl_get e' k a' = Some (u', n') -> decl_get e k a' = None -> n <> n'.
  Proof. intros H H' H0 <-. destruct (base_exists n) as (b & B). exact (proj2 M _ _ _ _ _ _ _ _ H H' H0 B B). Qed.
  Lemma function_more a name r : function_means e a name r -> function_means e' a name r.
  Proof.
    intros H. destruct H as [a name u n G C|a name u n G C Only].
    - eapply fm_anchor; [exact (proj1 M _ _ _ G)|exact C].
    - eapply fm_only; [exact (proj1 M _ _ _ G)|exact C|]. intros a' u' n' G' C'. destruct (decl_get e KFunction a') as [[u2 n2]|] eqn:E.
      + apply (Only a' u2 n2); auto. pose proof (proj1 M _ _ _ E) as E'. rewrite E' in G'. injection G' as -> ->. exact C'.
      + exfalso. destruct C as [[C1 C2]|[C1 C2]], C' as [[D1 D2]|[D1 D2]]; try contradiction.
        * subst. now apply (new_name _ _ _ _ _ _ _ G G' E).
        * exact (proj2 M _ _ _ _ _ _ _ _ G G' E C2 D2).
  Qed.
  Lemma user_type_more a name r : user_type_means e a name r -> user_type_means e' a name r.
  Proof.
    intros H. destruct H as [a name u n G C|a name u G Only].
    - eapply um_anchor; [exact (proj1 M _ _ _ G)|exact C].
    - eapply um_only; [exact (proj1 M _ _ _ G)|]. intros a' u' G'. destruct (decl_get e KType a') as [[u2 n2]|] eqn:E.
      + pose proof (proj1 M _ _ _ E) as E'. rewrite E' in G'. injection G' as -> ->. eauto.
      + exfalso. now apply (new_name _ _ _ _ _ _ _ G G' E).
  Qed.
End Refs.

Section Read.
  Context `{F : Floats}.
  Context (reg reg' : registry) (e e' : exts) (M : more_declared e e').
  Context (MH : forall k n h, hget (k, n) (rg_handlers reg) = Some h -> hget (k, n) (rg_handlers reg') = Some h).

  Lemma type_more : forall c t, type_means e c t -> type_means e' c t.
  Proof.
    apply (tcst_ind2 (fun c => forall t, type_means e c t -> type_means e' c t) (fun c => forall p, param_means e c p -> param_means e' c p)).
    - intros s n t H. inversion H; subst. now constructor.
    - intros n c IH t H. inversion H; subst. constructor. auto.
    - intros n k v _ _ t H. inversion H.
    - intros n ps _ t H. inversion H.
    - intros k n p t H. inversion H; subst. now constructor.
    - intros n p t H. inversion H; subst. now constructor.
    - intros i a u n ps IH t H. inversion H; subst.
      + econstructor; eauto. eapply user_type_more; eauto.
      + econstructor; eauto; [eapply user_type_more; eauto|]. eapply Forall2_mono_in; [|eassumption]. now apply IH.
    - intros t IH p H. inversion H; subst. constructor. auto.
    - intros s p H. inversion H.
    - intros n p H. inversion H.
  Qed.
  Lemma literal_more c l : literal_means e c l -> literal_means e' c l.
  Proof. intros H. destruct H; econstructor; eauto using type_more. Qed.
  Lemma call_more f r : call_means e f r -> call_means e' f r.
  Proof. intros (a & u & H & H' & K). exists a, u. split; auto. split; auto. eapply function_more; eauto. Qed.
  Lemma expr_more : forall c x, expr_means e c x -> expr_means e' c x.
  Proof.
    induction c as [ifs els IH1 IH2|c b t IH|f args t IH|s|c] using ecst_ind2; intros x H; inversion H; subst.
    - constructor; [| |now apply IH2]; (eapply Forall2_mono_in; [|eassumption]); apply Forall_map; eapply Forall_impl; [|exact IH1| |exact IH1]; cbn beta; intros p [Ha Hb]; auto.
    - constructor; auto using type_more.
    - constructor; auto using type_more, call_more. eapply Forall2_mono_in; eauto.
    - now constructor.
    - constructor. now apply literal_more.
  Qed.
  Lemma argument_more : forall c v, argument_means e c v -> argument_means e' c v.
  Proof.
    induction c as [s|c|s|c|l IH] using xacst_ind2; intros v H; inversion H; subst; try (constructor; auto; fail).
    - constructor. now apply expr_more.
    - constructor. eapply Forall2_mono_in; eauto.
  Qed.
  Lemma arguments_more c cols a : arguments_mean e c cols a -> arguments_mean e' c cols a.
  Proof.
    intros (ps & ns & vs & m & H1 & H2 & H3 & H). exists ps, ns, vs, m. split; [eapply Forall2_mono; [apply argument_more|exact H1]|]. split; auto.
    split; [eapply Forall2_mono; [apply argument_more|exact H3]|exact H].
  Qed.
  Lemma xcolumn_more c x : xcolumn_means e c x -> xcolumn_means e' c x.
  Proof. intros H. destruct H; constructor; auto using type_more, expr_more. Qed.
  Lemma handled_more k n a d : handled reg k n a d -> handled reg' k n a d.
  Proof. intros (h & H & K). exists h. split; auto. Qed.
  Lemma column_more c p : column_means e c p -> column_means e' c p.
  Proof. intros [H K]. split; auto. now apply type_more. Qed.
  Lemma columns_more cs ps : Forall2 (column_means e) cs ps -> Forall2 (column_means e') cs ps.
  Proof. apply Forall2_mono. apply column_more. Qed.
  Lemma exprs_more cs xs : Forall2 (expr_means e) cs xs -> Forall2 (expr_means e') cs xs.
  Proof. apply Forall2_mono. apply expr_more. Qed.
  Lemma rows_more cs xs : Forall2 (Forall2 (expr_means e)) cs xs -> Forall2 (Forall2 (expr_means e')) cs xs.
  Proof. apply Forall2_mono. apply exprs_more. Qed.
  Lemma output_more o cols k n : output_means e o cols k n -> output_means e' o cols k n.
  Proof. intros H. destruct H; constructor; auto using columns_more. Qed.
  Lemma project_more n l xs m : project_means e n l xs m -> project_means e' n l xs m.
  Proof. induction 1; econstructor; eauto using expr_more. Qed.
  Lemma outputs_more g n l ms m : outputs_mean e g n l ms m -> outputs_mean e' g n l ms m.
  Proof. induction 1; [constructor|eapply op_group; eauto using expr_more|eapply op_measure; eauto using expr_more]. Qed.
  Lemma sort_more c f : sort_means e c f -> sort_means e' c f.
  Proof. intros (x & d & H & K). exists x, d. split; auto. now apply expr_more. Qed.
  Lemma option_more {A B} (P Q : A -> B -> Prop) a b : (forall x y, P x y -> Q x y) -> option_means P a b -> option_means Q a b.
  Proof. intros H K. destruct K; constructor; auto. Qed.
  Lemma bound_more c b : bound_means e c b -> bound_means e' c b.
  Proof. intros H. destruct H; constructor; auto. now apply expr_more. Qed.
  Lemma line_more y ins adv r n : line_means e y ins adv r n -> line_means e' y ins adv r n.
  Proof.
    intros H. destruct H; econstructor; eauto using output_more, rows_more, columns_more, expr_more, project_more, outputs_more.
    all: try (eapply option_more; [|eassumption]; first [apply expr_more|apply bound_more]).
    eapply Forall2_mono; [apply sort_more|eassumption].
  Qed.
  Lemma addendum_more a d : addendum_means reg e a d -> addendum_means reg' e' a d.
  Proof. unfold addendum_means. destruct (fst a) as [k c args]. intros (n & xa & H1 & H2 & H3). exists n, xa. eauto using arguments_more, handled_more. Qed.
  Lemma addenda_more l a : addenda_mean reg e l a -> addenda_mean reg' e' l a.
  Proof. intros H. destruct H; [now constructor|]. constructor; auto; (eapply Forall2_mono; [apply addendum_more|eassumption]). Qed.
  Lemma tree_more : forall t r n, tree_means reg e t r n -> tree_means reg' e' t r n.
  Proof.
    induction t as [y line ads cs IH] using rnode_ind2. intros r n H.
    assert (G : forall ins, Forall2 (fun c p => tree_means reg e c (fst p) (snd p)) cs ins -> Forall2 (fun c p => tree_means reg' e' c (fst p) (snd p)) cs ins).
    { intros ins K. eapply Forall2_mono_in; [|exact K]. eapply Forall_impl; [|exact IH]. cbn beta. auto. }
    inversion H; subst.
    - eapply tr_line; eauto using addenda_more, line_more.
    - eapply tr_table; eauto using addendum_more, addenda_more, columns_more.
    - eapply tr_extension; eauto using arguments_more, handled_more. eapply Forall2_mono; [apply xcolumn_more|eassumption].
  Qed.
  Lemma plan_tree_more t p : plan_tree_means reg e t p -> plan_tree_means reg' e' t p.
  Proof. intros H. destruct H; [eapply pt_root|eapply pt_rel]; eauto using tree_more. Qed.
End Read.
