(** Reading agrees with meaning: literals, expressions, arguments and columns of
    extensions. *)
From Coq Require Import String List NArith ZArith Bool Lia.
From Verif Require Import Base BaseFacts Names SimpleExt SimpleExtFacts Out Anchors Types TypesFacts
  Calendar Literals LiteralsFacts Exprs CrashFacts ExtArgs SpecMeaning MeaningFacts MeaningTimes.
Import ListNotations.
Local Open Scope string_scope.
Local Open Scope list_scope.
Local Open Scope nat_scope.

Lemma bool_word s b : streqb s (L "true") = b <-> (b = true <-> s = L "true").
Proof.
  destruct (streqb s (L "true")) eqn:E.
  - apply streqb_eq in E. destruct b; intuition congruence.
  - assert (s <> L "true") by (intros ->; rewrite streqb_refl in E; discriminate). destruct b; intuition congruence.
Qed.
(** What the readers of literals see of a type. *)
Definition plain (t : ptype) : Prop :=
  match t with
  | TSimple _ _ v | TPrec _ _ _ v | TIntervalDay _ _ v => v = 0%N
  | TNone => False
  | _ => True
  end.
Lemma type_plain e c t : type_means e c t -> plain t.
Proof. destruct 1; cbn; auto. Qed.
Lemma nullable_iff n : nullable_of n = may_be_null n. Proof. now destruct n. Qed.

Section Values.
  Context `{F : Floats}.

  Definition value_read (c : litc) (t : option ptype) : pres literal :=
    match c with
    | CInt s => to_int_literal s t
    | CFloat s => to_float_literal s t
    | CBool s => to_boolean_literal s t
    | CStr s => to_string_literal s t
    | CNull => to_null_literal t
    end.
  Lemma string_value s t l : match t with Some t => plain t | None => True end ->
    to_string_literal s t = Ok l <-> exists v b, l = mk_lit (Some v) b 0 /\ value_means (CStr s) t v b.
  Proof.
    intros Ht. unfold to_string_literal. rewrite rbind_iff. setoid_rewrite string_iff. split.
    - intros (x & Hx & H).
      destruct t as [[k n v|k p n v|o n v|? ? ?|? ? ? ?|? ? ? ?|? ? ?|? ? ?|? ? ? ?|? ? ? ?|?| | |]|]; cbn [plain] in Ht; try contradiction; subst;
        try (injection H as <-; eexists _, _; split; [reflexivity|]; constructor; now try reflexivity).
      + destruct k; try (injection H as <-; eexists _, _; split; [reflexivity|]; constructor; now try reflexivity).
        * apply rbind_ok in H as (z & Hz & [= <-]). rewrite nullable_iff. apply moment_iff in Hz as (sep & m & Hs & Hm & Hu).
          eexists _, _. split; [reflexivity|]. econstructor; eauto.
        * apply rbind_ok in H as (z & Hz & [= <-]). rewrite nullable_iff. apply date_iff in Hz as (sep & d & Hs & Hd & Hn).
          eexists _, _. split; [reflexivity|]. econstructor; eauto.
        * apply rbind_ok in H as (z & Hz & [= <-]). rewrite nullable_iff. apply time_iff in Hz as (m & Hm & Hu).
          eexists _, _. split; [reflexivity|]. econstructor; eauto.
      + destruct k; apply rbind_ok in H as (z & Hz & [= <-]); rewrite nullable_iff.
        * apply time_iff in Hz as (m & Hm & Hu). eexists _, _. split; [reflexivity|]. econstructor; eauto.
        * apply moment_iff in Hz as (sep & m & Hs & Hm & Hu). eexists _, _. split; [reflexivity|]. econstructor; eauto.
        * apply moment_iff in Hz as (sep & m & Hs & Hm & Hu). eexists _, _. split; [reflexivity|]. econstructor; eauto.
      + destruct o as [p|]; [|discriminate]. destruct (prec_of_units p) as [q|] eqn:Q; [|discriminate].
        apply rbind_ok in H as (i & Hi & [= <-]). rewrite nullable_iff. apply duration_iff in Hi.
        assert (E : prec_units q = p).
        { unfold prec_of_units in Q. repeat match type of Q with context [(?a =? ?b)%Z] => destruct (Z.eqb_spec a b) as [->|]; [now injection Q as <-|] end. discriminate. }
        rewrite E in Hi. eexists _, _. split; [reflexivity|]. econstructor; eauto.
    - intros (v & b & -> & H). inversion H; subst; exists x; (split; [assumption|]); try reflexivity.
      + destruct t0 as [k n v|k p n v|o n v|? ? ?|? ? ? ?|? ? ? ?|? ? ?|? ? ?|? ? ? ?|? ? ? ?|?| | |]; try reflexivity; try discriminate.
        destruct k; try reflexivity; discriminate.
      + assert (G : parse_date_to_days x = Ok z) by (apply date_iff; eauto). rewrite G. cbn [rbind]. now rewrite nullable_iff.
      + assert (G : parse_time x 6 = Ok v0) by (apply time_iff; eauto). rewrite G. cbn [rbind]. now rewrite nullable_iff.
      + assert (G : parse_timestamp x 6 = Ok v0) by (apply moment_iff; eauto). rewrite G. cbn [rbind]. now rewrite nullable_iff.
      + assert (G : parse_time x p = Ok v0) by (apply time_iff; eauto). rewrite G. cbn [rbind]. now rewrite nullable_iff.
      + assert (G : parse_timestamp x p = Ok v0) by (apply moment_iff; eauto). rewrite G. cbn [rbind]. now rewrite nullable_iff.
      + assert (G : parse_timestamp x p = Ok v0) by (apply moment_iff; eauto). rewrite G. cbn [rbind]. now rewrite nullable_iff.
      + assert (Q : exists q, prec_of_units p = Some q /\ prec_units q = p).
        { assert (Hp : In p [0; 3; 6; 9; 12]%Z).
          { match goal with D : duration_text p x i |- _ => destruct D as [? ? ? ? Hp|u ? ? ? ? ? ? Hp] end; auto.
            cbn in Hp. destruct Hp as [E|[E|[E|[E|[]]]]]; injection E as <- _; cbn; auto 10. }
          cbn in Hp. destruct Hp as [<-|[<-|[<-|[<-|[<-|[]]]]]]; eexists; split; reflexivity. }
        destruct Q as (q & -> & E). assert (G : parse_interval x q = Ok i) by (apply duration_iff; now rewrite E). rewrite G. cbn [rbind]. now rewrite nullable_iff.
  Qed.
  Lemma value_iff c t l : match t with Some t => plain t | None => True end ->
    value_read c t = Ok l <-> exists v b, l = mk_lit (Some v) b 0 /\ value_means c t v b.
  Proof.
    intros Ht. destruct c as [s|s|s|s|]; cbn [value_read]; [..|now apply string_value|].
    - split.
      + unfold to_float_literal. intros H.
        destruct t as [[k n v|k p n v|o n v|? ? ?|? ? ? ?|? ? ? ?|? ? ?|? ? ?|? ? ? ?|? ? ? ?|?| | |]|]; cbn [plain] in Ht; try contradiction; try discriminate.
        * subst v. destruct k; try discriminate; injection H as <-; rewrite nullable_iff; eexists _, _; (split; [reflexivity|]); constructor.
        * injection H as <-; eexists _, _; (split; [reflexivity|]); constructor.
      + intros (v & b & -> & H). inversion H; subst; cbn; rewrite ?nullable_iff; reflexivity.
    - unfold to_int_literal. rewrite rbind_iff. setoid_rewrite unwrap_iff. setoid_rewrite parse_i64_iff. split.
      + intros (z & [Hz Hr] & H).
        destruct t as [[k n v|k p n v|o n v|? ? ?|? ? ? ?|? ? ? ?|? ? ?|? ? ?|? ? ? ?|? ? ? ?|?| | |]|]; cbn [plain] in Ht; try contradiction; try discriminate.
        * subst v. destruct k; try discriminate; injection H as <-; rewrite nullable_iff; eexists _, _; (split; [reflexivity|]); econstructor; eauto; now apply wrap_bits.
        * injection H as <-; eexists _, _; (split; [reflexivity|]); now constructor.
      + intros (v & b & -> & H). inversion H; subst; exists z; (split; [auto|]); rewrite ?nullable_iff; try reflexivity;
          match goal with B : same_bits _ _ |- _ => apply wrap_bits in B as -> end; reflexivity.
    - unfold to_boolean_literal. split.
      + intros H.
        destruct t as [[k n v|k p n v|o n v|? ? ?|? ? ? ?|? ? ? ?|? ? ?|? ? ?|? ? ? ?|? ? ? ?|?| | |]|]; cbn [plain] in Ht; try contradiction; try discriminate.
        * subst v. destruct k; try discriminate; injection H as <-; rewrite nullable_iff; eexists _, _; (split; [reflexivity|]); constructor; now apply bool_word.
        * injection H as <-; eexists _, _; (split; [reflexivity|]); constructor; now apply bool_word.
      + intros (v & b & -> & H). inversion H as [| | | | | | | |? ? B|? ? ? B| | | | | | | | | |]; subst; apply bool_word in B as ->; rewrite ?nullable_iff; reflexivity.
    - unfold to_null_literal. split.
      + destruct t as [t|]; [|discriminate]. intros [= <-]. eexists _, _. split; [reflexivity|]. constructor.
      + intros (v & b & -> & H). inversion H; subst. reflexivity.
  Qed.
  Lemma literal_iff e c l : wf_exts e -> lower_literal e c = Ok l <-> literal_means e c l.
  Proof.
    intros W. unfold lower_literal. destruct c as [c ct]. cbn [fst snd]. rewrite rbind_iff. split.
    - intros (t & Ht & H). change (value_read c t = Ok l) in H. destruct ct as [ct|].
      + apply rmap_ok in Ht as (t' & Ht & ->). apply type_iff in Ht; auto. apply value_iff in H as (v & b & -> & H); [|eapply type_plain; eauto].
        econstructor; eauto.
      + injection Ht as <-. apply value_iff in H as (v & b & -> & H); auto. now constructor.
    - intros G. inversion G as [? v b H|? ct' t v b Ht H]; subst.
      + exists None. split; auto. change (value_read c None = Ok (mk_lit (Some v) b 0)). apply value_iff; eauto.
      + exists (Some t). split; [apply rmap_iff; exists t; split; auto; now apply type_iff|].
        change (value_read c (Some t) = Ok (mk_lit (Some v) b 0)). apply value_iff; eauto. eapply type_plain; eauto.
  Qed.

  (** ** Expressions *)

  Lemma call_iff e f r : wf_exts e ->
    (exists a, fref_values f = Ok a /\ get_and_validate_anchor e KFunction a (fr_name f) = Ok r) <-> call_means e f r.
  Proof.
    intros W. unfold call_means, fref_values. split.
    - intros (a & H & G). apply rbind_ok in H as (a' & Ha & H). apply rbind_ok in H as (u & Hu & [= <-]).
      apply anchor_iff in Ha, Hu. apply function_iff in G; auto. eauto.
    - intros (a & u & Ha & Hu & G). apply anchor_iff in Ha, Hu. apply function_iff in G; auto. exists a. rewrite Ha. cbn [rbind]. rewrite Hu. auto.
  Qed.
  Lemma cast_iff m b : behavior_value m = b <-> cast_means m b.
  Proof.
    destruct m as [c|]; cbn [behavior_value].
    - destruct (N.eqb_spec c 63) as [->|Hc]; split; try (intros <-; now constructor); inversion 1; subst; congruence.
    - split; [intros <-; constructor|]. now inversion 1.
  Qed.
  Lemma clauses_iff {A B} (f : A -> pres B) l ys : clauses_loop f l = Ok ys <-> Forall2 (fun x y => f x = Ok y) l ys.
  Proof.
    split.
    - revert ys. induction l as [|x l IH]; intros ys; cbn; [intros [= <-]; constructor|]. intros H.
      apply rbind_ok in H as (y & Hy & H). apply rbind_ok in H as (z & Hz & [= <-]). apply (proj1 (guard_iff _ _)) in Hy. constructor; [exact Hy|apply IH; exact Hz].
    - induction 1 as [|x y l ys H _ IH]; [reflexivity|]. cbn. rewrite H. cbn. cbn in IH. now rewrite IH.
  Qed.
  Lemma Forall2_combine {A B C} (P : A -> B -> Prop) (Q : A -> C -> Prop) (l : list A) (m : list (option B * option C)) :
    Forall2 (fun a y => exists b c, P a b /\ Q a c /\ y = (Some b, Some c)) l m <->
    exists bs cs, Forall2 P l bs /\ Forall2 Q l cs /\ m = combine (map Some bs) (map Some cs).
  Proof.
    split.
    - induction 1 as [|a y l m (b & c & Hb & Hc & ->) _ (bs & cs & IH1 & IH2 & ->)]; [exists [], []; repeat split; constructor|].
      exists (b :: bs), (c :: cs). repeat split; now constructor.
    - intros (bs & cs & H1 & H2 & ->). revert cs H2. induction H1 as [|a b l bs Hb _ IH]; intros cs H2; inversion H2; subst; cbn; constructor; eauto.
  Qed.
  Lemma Forall2_map_l {A B C} (P : B -> C -> Prop) (f : A -> B) l m : Forall2 P (map f l) m <-> Forall2 (fun a c => P (f a) c) l m.
  Proof.
    split.
    - revert m. induction l as [|a l IH]; intros m H; inversion H; subst; constructor; auto.
    - induction 1; cbn; constructor; auto.
  Qed.
  Lemma Forall2_map_r {A B C} (P : A -> B -> Prop) (f : B -> C) l m : Forall2 (fun a c => exists b, P a b /\ c = f b) l m <->
    exists bs, Forall2 P l bs /\ m = map f bs.
  Proof.
    split.
    - induction 1 as [|a c l m (b & Hb & ->) _ (bs & IH & ->)]; [exists []; repeat split; constructor|]. exists (b :: bs). split; [now constructor|reflexivity].
    - intros (bs & H & ->). induction H; cbn; constructor; eauto.
  Qed.
  Lemma values_iff e args vs : Forall (fun c => forall x, lower_expr e c = Ok x <-> expr_means e c x) args ->
    rlist (fun x => rmap AValue (lower_expr e x)) args = Ok vs <-> exists xs, Forall2 (expr_means e) args xs /\ vs = map AValue xs.
  Proof.
    intros IH. rewrite rlist_iff.
    rewrite (Forall2_iff _ (fun c v => exists x, lower_expr e c = Ok x /\ v = AValue x)) by (intros; apply rmap_iff).
    rewrite Forall2_map_r. split; intros (xs & H & ->); exists xs; split; auto; [rewrite <- Forall2_iff_in|rewrite Forall2_iff_in]; eauto.
  Qed.
  Lemma expr_iff e : wf_exts e -> forall c x, lower_expr e c = Ok x <-> expr_means e c x.
  Proof.
    intros W. induction c as [ifs els IH1 IH2|c b t IH|f args t IH|s|c] using ecst_ind2; intros x; cbn [lower_expr].
    - rewrite rbind_iff. setoid_rewrite rbind_iff.
      assert (G : forall l, clauses_loop (fun p : ecst * ecst => let? a := lower_expr e (fst p) in let? b := lower_expr e (snd p) in Ok (Some a, Some b)) ifs = Ok l
        <-> exists bs cs, Forall2 (expr_means e) (map fst ifs) bs /\ Forall2 (expr_means e) (map snd ifs) cs /\ l = combine (map Some bs) (map Some cs)).
      { intros l. setoid_rewrite Forall2_map_l. rewrite <- Forall2_combine, clauses_iff.
        apply Forall2_iff_in. eapply Forall_impl; [|exact IH1]. intros p [Ha Hb] y. split.
        - intros H. apply rbind_ok in H as (a & H1 & H). apply rbind_ok in H as (b & H2 & [= <-]). exists a, b. rewrite <- Ha, <- Hb. auto.
        - intros (a & b & H1 & H2 & ->). apply Ha in H1. apply Hb in H2. rewrite H1. cbn [rbind]. now rewrite H2. }
      split.
      + intros (l & Hl & y & Hy & [= <-]). apply G in Hl as (bs & cs & H1 & H2 & ->). apply IH2 in Hy. now constructor.
      + inversion 1; subst. eexists. split; [apply G; eauto|]. eexists. split; [apply IH2; eauto|reflexivity].
    - repeat setoid_rewrite rbind_iff. split.
      + intros (y & Hy & t' & Ht & [= <-]). apply IH in Hy. apply type_iff in Ht; auto. constructor; auto. now apply cast_iff.
      + inversion 1; subst. exists x0. rewrite IH. split; auto. exists t0. rewrite type_iff by auto. split; auto.
        match goal with B : cast_means _ _ |- _ => apply cast_iff in B as -> end. reflexivity.
    - split.
      + intros H. apply rbind_ok in H as (a & Ha & H). apply rbind_ok in H as (vs & Hv & H). apply rbind_ok in H as (t' & Ht & H).
        apply rbind_ok in H as (r & Hr & [= <-]). apply values_iff in Hv as (xs & Hx & ->); auto. apply type_iff in Ht; auto.
        constructor; auto. apply call_iff; eauto.
      + inversion 1 as [| |? ? xs ? t' r C Hx Ht| |]; subst. apply call_iff in C as (a & Ha & Hr); auto. rewrite Ha. cbn [rbind].
        assert (Hv : rlist (fun x => rmap AValue (lower_expr e x)) args = Ok (map AValue xs)) by (apply values_iff; eauto).
        rewrite Hv. cbn [rbind]. apply type_iff in Ht; auto. rewrite Ht. cbn [rbind]. rewrite Hr. reflexivity.
    - rewrite rmap_iff. setoid_rewrite field_index_iff. split.
      + intros (z & Hz & ->). now constructor.
      + inversion 1; subst. eauto.
    - rewrite rmap_iff. split.
      + intros (l & Hl & ->). constructor. now apply literal_iff.
      + inversion 1; subst. eexists. rewrite literal_iff by auto. eauto.
  Qed.

  (** ** Arguments of extensions *)

  Lemma argument_iff e : wf_exts e -> forall c v, lower_xarg e c = Ok v <-> argument_means e c v.
  Proof.
    intros W. induction c as [s|c|s|c|l IH] using xacst_ind2; intros v; cbn [lower_xarg].
    - split; [intros [= <-]; constructor|]. now inversion 1.
    - destruct c as [s|s|s|s|]; cbn [lower_parameter].
      + split; [intros [= <-]; constructor|]. now inversion 1.
      + rewrite rmap_iff. setoid_rewrite unwrap_iff. setoid_rewrite parse_i64_iff. split.
        * intros (z & [H1 H2] & ->). now constructor.
        * inversion 1; subst. eauto.
      + split; [intros [= <-]; constructor; now apply bool_word|]. inversion 1 as [| | | | |? ? B| | |]; subst. apply bool_word in B as ->. reflexivity.
      + rewrite rmap_iff. setoid_rewrite string_iff. split.
        * intros (z & H & ->). now constructor.
        * inversion 1; subst. eauto.
      + split; [intros [= <-]; constructor|]. now inversion 1.
    - rewrite rmap_iff. setoid_rewrite field_index_iff. split.
      + intros (z & Hz & ->). now constructor.
      + inversion 1; subst. eauto.
    - rewrite rmap_iff. split.
      + intros (x & Hx & ->). constructor. now apply expr_iff.
      + inversion 1; subst. eexists. rewrite expr_iff by auto. eauto.
    - rewrite rmap_iff. setoid_rewrite rlist_iff. split.
      + intros (vs & Hv & ->). constructor. now rewrite <- Forall2_iff_in; eauto.
      + inversion 1; subst. eexists. rewrite Forall2_iff_in; eauto.
  Qed.
  Lemma xcolumn_iff e : wf_exts e -> forall c v, lower_xcolumn e c = Ok v <-> xcolumn_means e c v.
  Proof.
    intros W c v. destruct c as [[n t]|s|c]; cbn [lower_xcolumn].
    - repeat setoid_rewrite rbind_iff. setoid_rewrite (name_iff (E := perr)). split.
      + intros (x & Hx & y & Hy & [= <-]). apply type_iff in Hy; auto. now constructor.
      + inversion 1; subst. eexists. split; [eauto|]. eexists. rewrite type_iff by auto. eauto.
    - rewrite rmap_iff. setoid_rewrite field_index_iff. split.
      + intros (z & Hz & ->). now constructor.
      + inversion 1; subst. eauto.
    - rewrite rmap_iff. split.
      + intros (x & Hx & ->). constructor. now apply expr_iff.
      + inversion 1; subst. eexists. rewrite expr_iff by auto. eauto.
  Qed.
End Values.
