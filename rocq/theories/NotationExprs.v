(** Expressions are written as SpecNotation.v says. *)
From Coq Require Import String List NArith ZArith Bool Lia.
From Verif Require Import Base BaseFacts Peg Names SimpleExt SimpleExtFacts Out Anchors Types TypesFacts
  Literals Exprs ExprsFacts SpecMeaning MeaningFacts SpecNotation NotationBase NotationTypes NotationLits.
Import ListNotations.
Local Open Scope string_scope.
Local Open Scope list_scope.
Local Open Scope nat_scope.

Lemma join_app sep l l' : l <> [] -> l' <> [] -> join sep (l ++ l') = join sep l ++ sep ++ join sep l'.
Proof.
  intros H H'. induction l as [|x l IH]; [congruence|]. destruct l as [|y l].
  - cbn [app]. destruct l'; [congruence|]. reflexivity.
  - change ((x :: y :: l) ++ l') with (x :: ((y :: l) ++ l')). cbn [join app] in IH |- *. rewrite IH by discriminate. now rewrite <- !app_assoc.
Qed.
Lemma join_last sep l x : join sep (l ++ [x]) = concat (map (fun y => y ++ sep) l) ++ x.
Proof.
  induction l as [|y l IH]; [reflexivity|]. cbn [app map concat]. destruct (l ++ [x]) as [|z r] eqn:E; [destruct l; discriminate|].
  cbn [join]. cbn [join] in IH. rewrite IH. now rewrite <- !app_assoc.
Qed.
Lemma option_outs opts ss : Forall2 clean (map fnopt_out opts) ss <-> ss = map option_text opts.
Proof.
  revert ss. induction opts as [|o opts IH]; intros ss; cbn [map].
  - apply no_params.
  - split.
    + intros H. inversion H as [|? x ? r H1 H2]; subst. apply clean_txt in H1 as ->. apply IH in H2 as ->. reflexivity.
    + intros ->. constructor; [now apply clean_txt|now apply IH].
Qed.
Lemma invocation_iff op e r args opts s : wf_exts e -> clean (invocation_out op e r args opts) s <->
  exists f xs, reference_text op e KFunction r f /\ Forall2 clean args xs /\ s = f ++ L "(" ++ listed (xs ++ map option_text opts) ++ L ")".
Proof.
  intros W. unfold invocation_out.
  assert (J : forall xs, length args = length xs -> join (L ", ") xs ++ (match args, opts with [], _ | _, [] => [] | _, _ => L ", " end) ++ join (L ", ") (map option_text opts)
              = listed (xs ++ map option_text opts)).
  { intros xs E. unfold listed. destruct args as [|a args], xs as [|x xs]; try discriminate; [reflexivity|]. destruct opts as [|o opts].
    - cbn [map join app]. now rewrite !app_nil_r.
    - rewrite join_app by discriminate. reflexivity. }
  rewrite clean_app. setoid_rewrite (reference_iff op e KFunction r _ W). split.
  - intros (f & y & Hf & H & ->). apply clean_before in H as (z & H & ->). apply clean_app in H as (a & b & Ha & H & ->). apply clean_sep in Ha as (xs & Hx & ->).
    apply clean_before in H as (c & H & ->). apply clean_after in H as (d & H & ->). apply clean_sep in H as (os & H & ->). apply option_outs in H as ->.
    exists f, xs. split; [auto|]. split; [auto|]. rewrite <- J by (clear -Hx; induction Hx; cbn; congruence). now rewrite <- !app_assoc.
  - intros (f & xs & Hf & Hx & ->). eexists f, _. split; [auto|]. split; [|reflexivity]. apply clean_before. eexists. split; [|reflexivity].
    rewrite <- J by (clear -Hx; induction Hx; cbn; congruence). rewrite <- !app_assoc. apply clean_app. eexists _, _. split; [apply clean_sep; eauto|]. split; [|reflexivity].
    apply clean_before. eexists. split; [|reflexivity]. apply clean_after. eexists. split; [|reflexivity]. apply clean_sep. eexists. split; [now apply option_outs|reflexivity].
Qed.
Lemma output_iff op e t s : wf_exts e -> clean (output_type_out op e t) s <-> exists y x, t = Some y /\ type_text op e y x /\ s = L ":" ++ x.
Proof.
  intros W. destruct t as [t|]; cbn [output_type_out].
  - rewrite clean_before. setoid_rewrite (type_text_iff op e W). split; [intros (y & H & ->); eauto|]. intros (y & x & [= <-] & H & ->). eauto.
  - rewrite clean_fail. split; [tauto|]. intros (y & x & H & _). discriminate.
Qed.
Lemma behavior_iff b s : clean (behavior_out b) s <-> behavior_text b s.
Proof.
  unfold behavior_out. destruct (Z.eqb_spec b 0) as [->|]; [rewrite clean_nil; split; [intros ->; constructor|intros H; now inversion H]|].
  destruct (Z.eqb_spec b 1) as [->|]; [rewrite clean_txt; split; [intros ->; constructor|intros H; now inversion H]|].
  destruct (Z.eqb_spec b 2) as [->|]; [rewrite clean_txt; split; [intros ->; constructor|intros H; now inversion H]|].
  rewrite clean_fail. split; [tauto|]. intros H. inversion H; congruence.
Qed.

Section Exprs.
  Context `{U : Unicode} `{F : Floats}.

  Definition opt_out (op : options) (e : exts) (o : option pexpr) : out :=
    match o with Some y => expr_out op e y | None => ofail (FPlan FInvalid "Expression") end.
  Definition clause_out (op : options) (e : exts) (c : option pexpr * option pexpr) : out :=
    opt_out op e (fst c) +++ txt (L " -> ") +++ opt_out op e (snd c) +++ txt (L ", ").
  Definition clause_text (p : list N * list N) : list N := fst p ++ L " -> " ++ snd p.
  Lemma opt_iff op e o s : opt_all (fun x => forall s, clean (expr_out op e x) s <-> expr_text op e x s) o ->
    clean (opt_out op e o) s <-> exists x, o = Some x /\ expr_text op e x s.
  Proof.
    destruct o as [x|]; cbn [opt_out opt_all]; intros H.
    - rewrite H. split; [eauto|]. now intros (y & [= <-] & K).
    - rewrite clean_fail. split; [tauto|]. intros (y & K & _). discriminate.
  Qed.
  Lemma clauses_iff op e ifs s : Forall (fun c : option pexpr * option pexpr =>
      opt_all (fun x => forall s, clean (expr_out op e x) s <-> expr_text op e x s) (fst c)
      /\ opt_all (fun x => forall s, clean (expr_out op e x) s <-> expr_text op e x s) (snd c)) ifs ->
    clean (fold_right oapp onil (map (clause_out op e) ifs)) s <->
    exists conds vals cs vs, ifs = combine (map Some conds) (map Some vals) /\ length conds = length vals
      /\ Forall2 (expr_text op e) conds cs /\ Forall2 (expr_text op e) vals vs
      /\ s = concat (map (fun y => y ++ L ", ") (map clause_text (combine cs vs))).
  Proof.
    intros H. revert s. induction H as [|[c v] ifs [Hc Hv] _ IH]; intros s; cbn [map fold_right].
    - rewrite clean_nil. split; [intros ->; exists [], [], [], []; auto|]. intros (conds & vals & cs & vs & E & El & H1 & H2 & ->).
      destruct conds, vals; try discriminate. inversion H1; subst. reflexivity.
    - cbn [fst snd] in Hc, Hv. rewrite clean_app. setoid_rewrite IH. unfold clause_out at 1. cbn [fst snd].
      setoid_rewrite clean_app. setoid_rewrite clean_before. setoid_rewrite clean_after.
      setoid_rewrite (opt_iff _ _ _ _ Hc). setoid_rewrite (opt_iff _ _ _ _ Hv). split.
      + intros (a & b & (x & y & (c' & -> & K1) & (z & (w & (v' & -> & K2) & ->) & ->) & ->) & (conds & vals & cs & vs & -> & El & H1 & H2 & ->) & ->).
        exists (c' :: conds), (v' :: vals), (x :: cs), (w :: vs). split; [reflexivity|]. split; [cbn; congruence|]. split; [now constructor|]. split; [now constructor|].
        cbn [combine map concat]. unfold clause_text. cbn [fst snd]. now rewrite <- !app_assoc.
      + intros (conds & vals & cs & vs & E & El & H1 & H2 & ->). destruct conds as [|c' conds], vals as [|v' vals]; try discriminate.
        cbn [map combine] in E. injection E as -> -> ->. inversion H1 as [|? x ? cs' K1 K1']; inversion H2 as [|? w ? vs' K2 K2']; subst.
        eexists _, _. split; [|split; [exists conds, vals, cs', vs'; auto 10|]].
        * eexists x, _. split; [eauto|]. split; [|reflexivity]. eexists. split; [|reflexivity]. eexists. split; [|reflexivity]. eauto.
        * cbn [combine map concat]. unfold clause_text. cbn [fst snd]. now rewrite <- !app_assoc.
  Qed.

  Theorem expr_text_iff op e : wf_exts e -> forall x s, clean (expr_out op e x) s <-> expr_text op e x s.
  Proof.
    intros W. apply (pexpr_ind2 (fun x => forall s, clean (expr_out op e x) s <-> expr_text op e x s)
                                (fun a => forall s, clean (arg_out op e a) s <-> arg_text op e a s)).
    - intros l s. cbn [expr_out]. rewrite (literal_iff op e l s W). split; [now constructor|]. intros H. now inversion H.
    - intros f s. cbn [expr_out]. unfold fieldref_out. destruct f as [r [| | | |]]; cbn [fr_root fr_ref];
        try (rewrite clean_fail; split; [tauto|]; intros H; inversion H; fail).
      destruct r as [[i c| |]| |]; try (rewrite clean_fail; split; [tauto|]; intros H; inversion H; fail).
      rewrite clean_txt. unfold ref_text. split.
      + intros ->. constructor. now apply numeral_iff.
      + intros H. inversion H as [|? ? ? K| | |]; subst. apply numeral_iff in K as ->. reflexivity.
    - intros r args opts t IH s. cbn [expr_out]. rewrite clean_app. setoid_rewrite (invocation_iff op e r _ opts _ W). setoid_rewrite (output_iff op e t _ W).
      setoid_rewrite (clean_map _ _ _ _ IH). split.
      + intros (a & b & (f & xs & Hf & Hx & ->) & (y & x & -> & Hy & ->) & ->). rewrite <- !app_assoc.
        replace (L ")" ++ L ":" ++ x) with (L "):" ++ x) by reflexivity. now apply xt_call.
      + intros H. inversion H as [| |? ? ? y f xs x Hf Hx Hy| |]; subst. eexists _, _. split; [eauto|]. split; [exists y, x; auto|].
        rewrite <- !app_assoc. reflexivity.
    - intros ifs els IH IHe s.
      change (expr_out op e (EIf ifs els)) with
        (txt (L "if_then(") +++ fold_right oapp onil (map (clause_out op e) ifs) +++ txt (L "_ -> ") +++ opt_out op e els +++ txt (L ")")).
      rewrite clean_before. setoid_rewrite clean_app. setoid_rewrite clean_before. setoid_rewrite clean_after.
      setoid_rewrite (clauses_iff op e ifs _ IH). setoid_rewrite (opt_iff _ _ _ _ IHe). split.
      + intros (y & (a & b & (conds & vals & cs & vs & -> & El & H1 & H2 & ->) & (z & (w & (x & -> & K) & ->) & ->) & ->) & ->).
        pose proof (xt_if op e conds vals x cs vs w H1 H2 K El) as T. unfold listed in T. rewrite map_app in T. cbn [map] in T. rewrite join_last in T.
        cbn [fst snd] in T. fold clause_text in T. rewrite <- !app_assoc in T. exact T.
      + intros H. inversion H as [| | |conds vals x cs vs w H1 H2 K El|]; subst.
        eexists. split; [|unfold listed; rewrite map_app; cbn [map]; rewrite join_last; cbn [fst snd]; fold clause_text; reflexivity].
        eexists _, _. split; [exists conds, vals, cs, vs; auto 10|]. split; [|rewrite <- !app_assoc; reflexivity].
        eexists. split; [|reflexivity]. eexists. split; [|reflexivity]. eauto.
    - intros b i t IH s.
      change (expr_out op e (ECast b i t)) with (txt (L "(") +++ opt_out op e i +++ txt (L ")::") +++ behavior_out b +++ oexpect "Type" (type_out op e) t).
      rewrite clean_before. setoid_rewrite clean_app. setoid_rewrite clean_before. setoid_rewrite clean_app.
      setoid_rewrite (opt_iff _ _ _ _ IH). setoid_rewrite behavior_iff. split.
      + intros (y & (a & c & (x & -> & K) & (z & (m & w & Hb & Ht & ->) & ->) & ->) & ->). destruct t as [t|]; cbn [oexpect] in Ht; [|now apply clean_fail in Ht].
        apply (type_text_iff op e W) in Ht. now constructor.
      + intros H. inversion H as [| | | |? m x a ? y K Hb Ht]; subst. eexists. split; [|reflexivity]. eexists _, _. split; [eauto|]. split; [|reflexivity].
        eexists. split; [|reflexivity]. exists m, y. split; [auto|]. split; [|reflexivity]. now apply (type_text_iff op e W).
    - intros v s. cbn [expr_out]. rewrite clean_fail. split; [tauto|]. intros H. inversion H.
    - intros s. cbn [expr_out]. rewrite clean_fail. split; [tauto|]. intros H. inversion H.
    - intros t s. cbn [arg_out]. rewrite (type_text_iff op e W). split; [now constructor|]. intros H. now inversion H.
    - intros x IH s. cbn [arg_out]. rewrite IH. split; [now constructor|]. intros H. now inversion H.
    - intros n s. cbn [arg_out]. rewrite clean_txt. split.
      + intros ->. constructor. now apply name_text_iff.
      + intros H. inversion H as [| |? ? K]; subst. apply name_text_iff in K as ->. reflexivity.
    - intros s. cbn [arg_out]. rewrite clean_fail. split; [tauto|]. intros H. inversion H.
  Qed.
  Lemma arg_text_iff op e a s : wf_exts e -> clean (arg_out op e a) s <-> arg_text op e a s.
  Proof.
    intros W. destruct a; cbn [arg_out].
    - rewrite (type_text_iff op e W). split; [now constructor|]. intros H. now inversion H.
    - rewrite (expr_text_iff op e W). split; [now constructor|]. intros H. now inversion H.
    - rewrite clean_txt. split.
      + intros ->. constructor. now apply name_text_iff.
      + intros H. inversion H as [| |? ? K]; subst. apply name_text_iff in K as ->. reflexivity.
    - rewrite clean_fail. split; [tauto|]. intros H. inversion H.
  Qed.
  Lemma aggfn_iff op e a s : wf_exts e -> clean (aggfn_out op e a) s <-> measure_text op e a s.
  Proof.
    intros W. unfold aggfn_out, measure_text. rewrite clean_app. setoid_rewrite (invocation_iff op e _ _ _ _ W). setoid_rewrite (output_iff op e _ _ W).
    assert (M : forall xs, Forall2 clean (map (arg_out op e) (af_args a)) xs <-> Forall2 (arg_text op e) (af_args a) xs).
    { intros xs. apply clean_map. apply Forall_forall. intros x _ t. now apply arg_text_iff. }
    setoid_rewrite M. split.
    - intros (x & y & (f & xs & Hf & Hx & ->) & (t & z & Ht & Hz & ->) & ->). exists f, xs, t, z. split; [auto|]. split; [auto|]. split; [auto|]. split; [auto|].
      now rewrite <- !app_assoc.
    - intros (f & xs & t & z & Hf & Hx & Ht & Hz & ->). eexists _, _. split; [eauto|]. split; [exists t, z; auto|]. now rewrite <- !app_assoc.
  Qed.
End Exprs.
