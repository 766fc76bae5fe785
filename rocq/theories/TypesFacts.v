(** Proofs about types. *)
From Coq Require Import String List NArith ZArith Bool Lia ZifyN ZifyNat ZifyBool.
From Verif Require Import Base BaseFacts Peg PegFacts Names SpecNames NamesFacts OMap SimpleExt Out Anchors
  SimpleExtFacts SpecExt AnchorsFacts Types SpecTypes.
Import ListNotations.
Open Scope peg_scope.

(** ** Induction *)

Section Ind.
  Context (P : ptype -> Prop) (Q : pparam -> Prop).
  Context (HS : forall k n v, P (TSimple k n v)) (HP : forall k p n v, P (TPrec k p n v))
    (HID : forall p n v, P (TIntervalDay p n v)) (HIC : forall p n v, P (TIntervalCompound p n v))
    (HL : forall k l n v, P (TLen k l n v)) (HD : forall p s n v, P (TDecimal p s n v))
    (HSt : forall ts n v, Forall P ts -> P (TStruct ts n v))
    (HLi : forall t n v, (forall x, t = Some x -> P x) -> P (TList t n v))
    (HM : forall a b n v, (forall x, a = Some x -> P x) -> (forall x, b = Some x -> P x) ->
            P (TMap a b n v))
    (HU : forall r ps n v, Forall Q ps -> P (TUser r ps n v))
    (HUR : forall r, P (TUserRef r)) (HF : P TFunc) (HA : P TAlias) (HN : P TNone)
    (QB : forall b, Q (PBool b)) (QT : forall t, P t -> Q (PType t)) (QE : forall s, Q (PEnum s))
    (QI : forall z, Q (PInt z)) (QS : forall s, Q (PStr s)) (QN : Q PNull) (QO : Q PNone).
  Fixpoint ptype_ind2 (t : ptype) : P t :=
    match t with
    | TSimple k n v => HS k n v
    | TPrec k p n v => HP k p n v
    | TIntervalDay p n v => HID p n v
    | TIntervalCompound p n v => HIC p n v
    | TLen k l n v => HL k l n v
    | TDecimal p s n v => HD p s n v
    | TStruct ts n v =>
        HSt ts n v ((fix go l : Forall P l :=
                       match l with [] => Forall_nil _ | x :: r => Forall_cons _ (ptype_ind2 x) (go r) end) ts)
    | TList t n v =>
        HLi t n v (match t with
                   | Some y => fun x E => match E in _ = o return match o with Some z => P z | None => True end
                                          with eq_refl => ptype_ind2 y end
                   | None => fun x (E : None = Some x) =>
                       match E in _ = o return match o with Some z => P z | None => True end with eq_refl => I end
                   end)
    | TMap a b n v =>
        HM a b n v
          (match a with
           | Some y => fun x E => match E in _ = o return match o with Some z => P z | None => True end
                                  with eq_refl => ptype_ind2 y end
           | None => fun x (E : None = Some x) =>
               match E in _ = o return match o with Some z => P z | None => True end with eq_refl => I end
           end)
          (match b with
           | Some y => fun x E => match E in _ = o return match o with Some z => P z | None => True end
                                  with eq_refl => ptype_ind2 y end
           | None => fun x (E : None = Some x) =>
               match E in _ = o return match o with Some z => P z | None => True end with eq_refl => I end
           end)
    | TUser r ps n v =>
        HU r ps n v ((fix go l : Forall Q l :=
                        match l with [] => Forall_nil _ | x :: r => Forall_cons _ (pparam_ind2 x) (go r) end) ps)
    | TUserRef r => HUR r
    | TFunc => HF
    | TAlias => HA
    | TNone => HN
    end
  with pparam_ind2 (p : pparam) : Q p :=
    match p with
    | PBool b => QB b
    | PType t => QT t (ptype_ind2 t)
    | PEnum s => QE s
    | PInt z => QI z
    | PStr s => QS s
    | PNull => QN
    | PNone => QO
    end.
End Ind.

Section CInd.
  Context (P : tcst -> Prop) (Q : pcst -> Prop).
  Context (HS : forall s n, P (CSimple s n)) (HL : forall n t, P t -> P (CList n t))
    (HM : forall n k v, P k -> P v -> P (CMap n k v)) (HSt : forall n ps, Forall Q ps -> P (CStruct n ps))
    (HP : forall k n p, P (CPrec k n p)) (HI : forall n p, P (CIntervalDay n p))
    (HU : forall i a u n ps, (forall l, ps = Some l -> Forall Q l) -> P (CUser i a u n ps))
    (QT : forall t, P t -> Q (CPType t)) (QI : forall s, Q (CPInt s)) (QN : forall n, Q (CPName n)).
  Fixpoint tcst_ind2 (t : tcst) : P t :=
    match t with
    | CSimple s n => HS s n
    | CList n t => HL n t (tcst_ind2 t)
    | CMap n k v => HM n k v (tcst_ind2 k) (tcst_ind2 v)
    | CStruct n ps =>
        HSt n ps ((fix go l : Forall Q l :=
                     match l with [] => Forall_nil _ | x :: r => Forall_cons _ (pcst_ind2 x) (go r) end) ps)
    | CPrec k n p => HP k n p
    | CIntervalDay n p => HI n p
    | CUser i a u n ps =>
        HU i a u n ps
          (match ps with
           | Some l0 => fun l E =>
               match E in _ = o return match o with Some z => Forall Q z | None => True end with
               | eq_refl => (fix go l : Forall Q l :=
                     match l with [] => Forall_nil _ | x :: r => Forall_cons _ (pcst_ind2 x) (go r) end) l0
               end
           | None => fun l (E : None = Some l) =>
               match E in _ = o return match o with Some z => Forall Q z | None => True end with eq_refl => I end
           end)
    end
  with pcst_ind2 (c : pcst) : Q c :=
    match c with
    | CPType t => QT t (tcst_ind2 t)
    | CPInt s => QI s
    | CPName n => QN n
    end.
End CInd.

(** ** The grammar's recursion *)

Lemma shrinks_null_suffix : shrinks g_null_suffix.
Proof. unfold g_null_suffix. peg_shrink. Qed.
#[global] Hint Resolve shrinks_null_suffix : peg.
Lemma strict_simple_type : strict g_simple_type.
Proof. unfold g_simple_type. peg_shrink. Qed.
#[global] Hint Resolve strict_simple_type : peg.
Lemma strict_kw_list : strict (g_kw (L "list")). Proof. unfold g_kw. peg_shrink. Qed.
Lemma strict_kw_map : strict (g_kw (L "map")). Proof. unfold g_kw. peg_shrink. Qed.
#[global] Hint Resolve strict_kw_list strict_kw_map : peg.
Lemma strict_kw_int kw f : strict (g_kw_int kw f).
Proof. unfold g_kw_int, g_kw. peg_shrink. Qed.
#[global] Hint Resolve strict_kw_int : peg.
Lemma shrinks_parameter ty : shrinks ty -> shrinks (g_parameter ty).
Proof. intros. unfold g_parameter. peg_shrink. Qed.
Lemma strict_parameter ty : strict ty -> strict (g_parameter ty).
Proof. intros. unfold g_parameter. peg_shrink. Qed.
Lemma strict_parameters ty : shrinks ty -> strict (g_parameters ty).
Proof. intros. pose proof (shrinks_parameter ty H). unfold g_parameters. peg_shrink. Qed.
Lemma agree_parameters n p q : shrinks p -> shrinks q -> agree n p q ->
  agree (S n) (g_parameters p) (g_parameters q).
Proof.
  intros. unfold g_parameters. apply agree_then_strict; [peg_shrink|peg_agree|].
  apply agree_bind.
  - pose proof (shrinks_parameter p H). peg_shrink.
  - apply agree_sep0; [peg_shrink|now apply shrinks_parameter|]. unfold g_parameter. peg_agree.
  - peg_agree.
Qed.
Lemma agree_parameters0 p q : shrinks p -> shrinks q ->
  agree 0 (g_parameters p) (g_parameters q).
Proof. intros ? ? [|? ?] ?; [reflexivity|cbn in *; lia]. Qed.

Lemma type_F_strict p : shrinks p -> strict (type_F p).
Proof.
  intros. pose proof (strict_parameters p H) as Hp. unfold type_F, g_compound_type, g_user_type. peg_shrink.
Qed.
Lemma type_F_agree n p q : shrinks p -> shrinks q -> agree n p q -> agree (S n) (type_F p) (type_F q).
Proof.
  intros Hp Hq Ha. pose proof (strict_parameters p Hp) as Sp. pose proof (strict_parameters q Hq).
  pose proof (agree_parameters n p q Hp Hq Ha) as Hpar.
  assert (agree n (g_parameters p) (g_parameters q)) by (eapply agree_le; [|exact Hpar]; lia).
  unfold type_F, g_compound_type, g_user_type. peg_agree.
Qed.
Lemma type_F_agree0 p q : shrinks p -> shrinks q -> agree 0 (type_F p) (type_F q).
Proof. intros Hp Hq [|? ?] Hs; [reflexivity|cbn in Hs; lia]. Qed.

Lemma g_type_eq s : g_type s = type_F g_type s.
Proof.
  apply prun_eq; [intros; apply strict_shrinks; now apply type_F_strict|apply type_F_agree|apply type_F_agree0].
Qed.
Lemma strict_type : strict g_type.
Proof.
  intros s a r H. rewrite g_type_eq in H. eapply type_F_strict; [|exact H].
  apply prun_shrinks. intros. apply strict_shrinks. now apply type_F_strict.
Qed.
#[global] Hint Resolve strict_type : peg.

(** ** Reading back what was written *)

(** The text of a nullability. *)
Definition null_text (n : nullability) : list N :=
  match n with NUnspecified => [c_unspec] | NNullable => L "?" | NRequired => [] end.
Lemma null_out_text n : o_text (null_out n) = null_text n.
Proof. now destruct n. Qed.

Definition null_stop (c : N) : bool := (c =? 63)%N || (c =? c_unspec)%N.
Lemma null_suffix_app n rest : hd_not null_stop rest = true ->
  g_null_suffix (null_text n ++ rest) = Some (n, rest).
Proof.
  intros H. unfold g_null_suffix. destruct n; cbn [null_text app].
  - reflexivity.
  - reflexivity.
  - destruct rest as [|c rest]; [reflexivity|]. cbn [hd_not] in H. unfold null_stop in H. bool_hyps.
    apply palt_r; [|apply palt_r; [|reflexivity]]; apply pmap_none.
    + apply (ptok_none_hd [] 63%N). cbn [hd_not]. lia.
    + apply (ptok_none_hd [] c_unspec). cbn [hd_not]. lia.
Qed.

(** A simple type. *)
Lemma g_simple_app k n rest : hd_not type_stop rest = true ->
  g_simple_type (skind_name k ++ null_text n ++ rest) = Some (CSimple (skind_name k) n, rest).
Proof.
  intros H. unfold g_simple_type. eapply pbind_some with (a := skind_name k) (r := null_text n ++ rest).
  - destruct k; try reflexivity.
    (* timestamp and time: longer names are tried first *)
    + destruct n; try reflexivity. destruct rest as [|c r]; [reflexivity|].
      cbn [hd_not app null_text] in H. unfold type_stop in H. bool_hyps.
      assert (Hc : (95 =? c)%N = false) by chars.
      cbn [ptoks simple_names]. repeat (apply palt_r; [reflexivity|]).
      apply palt_r; [|reflexivity]. apply pmap_none. unfold ptok.
      change (strip_prefix _ _) with (strip_prefix (95%N :: L "tz") (c :: r)).
      cbn [strip_prefix]. now rewrite Hc.
    + destruct n; try reflexivity. destruct rest as [|c r]; [reflexivity|].
      cbn [hd_not app null_text] in H. unfold type_stop in H. bool_hyps.
      assert (Hc : (115 =? c)%N = false) by chars.
      cbn [ptoks simple_names]. repeat (apply palt_r; [reflexivity|]).
      apply palt_r; [|apply palt_r; [|reflexivity]]; apply pmap_none; unfold ptok.
      * change (strip_prefix _ _) with (strip_prefix (115%N :: L "tamp_tz") (c :: r)).
        cbn [strip_prefix]. now rewrite Hc.
      * change (strip_prefix _ _) with (strip_prefix (115%N :: L "tamp") (c :: r)).
        cbn [strip_prefix]. now rewrite Hc.
  - eapply pbind_some; [|reflexivity]. apply null_suffix_app.
    eapply hd_not_weaken; [|exact H]. unfold null_stop, type_stop. intros c. lia.
Qed.

Lemma simple_kind_name k : simple_kind (skind_name k) = Some k.
Proof. now destruct k. Qed.

(** A keyword. *)
Lemma strip_prefix_ci_app kw s : forallb (fun c => (to_lower c =? c)%N) kw = true ->
  strip_prefix_ci kw (kw ++ s) = Some s.
Proof.
  induction kw as [|c kw IH]; cbn; auto. intros H; bool_hyps. apply N.eqb_eq in H.
  rewrite H, N.eqb_refl. auto.
Qed.
Lemma g_kw_app kw n rest : forallb (fun c => (to_lower c =? c)%N) kw = true ->
  g_kw kw (kw ++ null_text n ++ L "<" ++ rest) = Some (n, rest).
Proof.
  intros H. unfold g_kw. eapply pthen_some.
  { unfold ptok_ci. rewrite strip_prefix_ci_app by auto. reflexivity. }
  eapply pbind_some; [now apply null_suffix_app|]. reflexivity.
Qed.

(** A keyword fails on any identifier other than the keyword itself. *)
Lemma strip_prefix_ci_ident kw n rest r :
  strip_prefix_ci kw (n ++ rest) = Some r -> forallb is_idchar kw = true ->
  forallb is_idchar n = true -> hd_not is_idchar rest = true ->
  (map to_lower n = kw /\ r = rest) \/ exists c r', r = c :: r' /\ is_idchar c = true.
Proof.
  revert kw; induction n as [|x n IH]; intros [|k kw] H Hk Hn Hr.
  - left. cbn in H. now injection H as <-.
  - exfalso. cbn in H. destruct rest as [|c rest]; [discriminate|].
    destruct (N.eqb_spec k (to_lower c)); [|discriminate]. subst. cbn [forallb hd_not] in *. bool_hyps.
    unfold to_lower in *. destruct (is_upper c) eqn:E; chars.
  - cbn in H. injection H as <-. right. cbn [forallb] in Hn. bool_hyps. eauto.
  - cbn in H. destruct (N.eqb_spec k (to_lower x)); [|discriminate].
    cbn [forallb] in *. bool_hyps. destruct (IH kw) as [[E ->]|E]; auto. left. split; auto. cbn. congruence.
Qed.

Lemma g_kw_none kw n rest : forallb is_idchar kw = true ->
  forallb is_idchar n = true -> hd_not is_idchar rest = true ->
  (map to_lower n = kw -> pbind g_null_suffix (fun n => ptok (L "<") ;;; pret n) rest = None) ->
  g_kw kw (n ++ rest) = None.
Proof.
  intros Hk Hn Hr Hf. unfold g_kw, pthen at 1, pbind at 1, ptok_ci.
  destruct (strip_prefix_ci kw (n ++ rest)) as [r|] eqn:E; auto.
  apply strip_prefix_ci_ident in E as [[E ->]|(c & r' & -> & Hc)]; auto.
  eapply pbind_some.
  - apply (null_suffix_app NRequired). cbn [hd_not]. unfold null_stop, c_unspec. chars.
  - apply pthen_none, (ptok_none_hd [] 60%N). cbn [hd_not]. chars.
Qed.

(** A written reference's first character after the name. *)
Lemma anchor_text_head a rest (f : N -> bool) : f 35%N = false -> hd_not f rest = true ->
  hd_not f (anchor_text a ++ rest) = true.
Proof. intros Hf H. destruct a; cbn; auto. now rewrite Hf. Qed.
Lemma null_text_head n rest (f : N -> bool) : f 63%N = false -> f c_unspec = false -> hd_not f rest = true ->
  hd_not f (null_text n ++ rest) = true.
Proof. intros ? ? H. destruct n; cbn; auto; now rewrite ?H0, ?H1. Qed.

(** Text of a parameter list. *)
Definition params_text (l : list (list N)) : list N :=
  match l with [] => [] | _ => L "<" ++ join (L ", ") l ++ L ">" end.

Lemma osep_text sep l : o_text (osep sep l) = join sep (map o_text l).
Proof.
  induction l as [|x l IH]; auto. destruct l as [|y l]; auto.
  change (osep sep (x :: y :: l)) with (x +++ txt sep +++ osep sep (y :: l)).
  cbn [oapp o_text txt]. rewrite IH. reflexivity.
Qed.
Lemma params_out_text l : o_text (params_out l) = params_text (map o_text l).
Proof.
  destruct l as [|x l]; auto. cbn [params_out oapp o_text txt]. rewrite osep_text. reflexivity.
Qed.

(** Parameters that are types. *)
Lemma g_parameters_app (l : list (list N * tcst)) rest :
  l <> [] ->
  (forall x r, In x l -> hd_not type_stop r = true -> g_type (fst x ++ r) = Some (snd x, r)) ->
  (forall x r, In x l -> hd_not is_sp (fst x ++ r) = true) ->
  g_parameters g_type (params_text (map fst l) ++ rest) = Some (map (fun x => CPType (snd x)) l, rest).
Proof.
  intros Hn Hp Hh. destruct l as [|x l]; [congruence|].
  cbn [map params_text]. rewrite <- !app_assoc. unfold g_parameters.
  eapply pthen_some; [apply ptok_app|].
  eapply pbind_some.
  - apply (psep0_items (A := pcst) (ptok (L ",") ;;; sp) (g_parameter g_type) (L ", ") fst
             (fun x => CPType (snd x)) (fun r => hd_not type_stop r = true) (x :: l)).
    + apply strict_parameter. apply strict_type.
    + peg_shrink.
    + intros y r Hy Hr. unfold g_parameter. apply palt_l. apply pmap_some. apply Hp; auto.
    + intros y r Hy. eapply pthen_some; [apply (ptok_app (L ","))|]. apply sp_one. now apply Hh.
    + reflexivity.
    + reflexivity.
    + reflexivity.
    + discriminate.
  - reflexivity.
Qed.

(** No simple type name begins the text of a usable name. *)
Lemma strip_prefix_ident_none t n rest :
  strip_prefix t n = None -> forallb is_idchar t = true -> hd_not is_idchar rest = true ->
  strip_prefix t (n ++ rest) = None.
Proof.
  revert n; induction t as [|x t IH]; intros n H Ht Hr; [discriminate|].
  destruct n as [|y n]; cbn [strip_prefix app] in *.
  - destruct rest as [|c rest]; auto. cbn [forallb hd_not] in *. bool_hyps.
    destruct (N.eqb_spec x c); auto. congruence.
  - cbn [forallb] in Ht. bool_hyps. destruct (x =? y)%N; auto.
Qed.

Lemma simple_none n rest : existsb (fun t => starts_with t n) simple_names = false ->
  hd_not is_idchar rest = true -> g_simple_type (n ++ rest) = None.
Proof.
  intros H Hr. unfold g_simple_type. apply pbind_none.
  assert (Ha : forallb (forallb is_idchar) simple_names = true) by reflexivity.
  revert H Ha. generalize simple_names. induction l as [|t l IH]; [reflexivity|].
  cbn [existsb forallb ptoks]. intros H Ha. bool_hyps. apply palt_r; [|now apply IH].
  apply pmap_none. unfold ptok. unfold starts_with in H.
  rewrite strip_prefix_ident_none; auto. now destruct (strip_prefix t n).
Qed.

Lemma type_name_ok_ident n : type_name_ok n = true ->
  is_identifier n = true /\ forallb is_idchar n = true /\
  existsb (fun t => starts_with t n) simple_names = false.
Proof.
  unfold type_name_ok. intros H; bool_hyps. repeat split; auto.
  unfold is_identifier in H. destruct n as [|c n]; [discriminate|]. cbn [forallb]. bool_hyps.
  rewrite H1, andb_true_r. chars.
Qed.

Lemma is_type_keyword_false n : is_type_keyword n = false ->
  map to_lower n <> L "list" /\ map to_lower n <> L "map" /\ map to_lower n <> L "struct".
Proof.
  unfold is_type_keyword, type_keywords. cbn [existsb]. intros H.
  repeat split; intros E; rewrite E in H; discriminate.
Qed.

(** After a keyword spelled by a user-defined type's name comes no ["<"]. *)
Lemma kw_tail_none n rest : hd_not type_stop rest = true ->
  pbind g_null_suffix (fun n => ptok (L "<") ;;; pret n) (null_text n ++ rest) = None.
Proof.
  intros H. eapply pbind_some.
  - apply null_suffix_app. eapply hd_not_weaken; [|exact H]. unfold null_stop, type_stop. intros c; cbv beta; lia.
  - apply pthen_none, (ptok_none_hd [] 60%N). eapply hd_not_weaken; [|exact H].
    unfold type_stop. intros c; cbv beta; lia.
Qed.
Lemma kw_anchor_none a rest :
  pbind g_null_suffix (fun n => ptok (L "<") ;;; pret n) (anchor_text (Some a) ++ rest) = None.
Proof. reflexivity. Qed.

Lemma g_kw_int_none kw f s : g_kw kw s = None -> g_kw_int kw f s = None.
Proof. apply pbind_none. Qed.

(** The compound types leave the text of a user-defined type alone. *)
Lemma compound_none n a nl ps rest :
  type_name_ok n = true ->
  (ps <> [] -> is_type_keyword n = false) ->
  Forall (fun p => hd_not (fun c => is_digit c || (c =? 45)%N) p = true /\ p <> []) ps ->
  hd_not type_stop rest = true ->
  g_compound_type g_type (n ++ anchor_text a ++ null_text nl ++ params_text ps ++ rest) = None.
Proof.
  intros Hn Hk Hps Hr. apply type_name_ok_ident in Hn as (Hi & Hid & _).
  set (X := anchor_text a ++ null_text nl ++ params_text ps ++ rest).
  assert (HX : hd_not is_idchar X = true).
  { apply anchor_text_head; [reflexivity|]. apply null_text_head; try reflexivity.
    destruct ps; [|reflexivity]. eapply hd_not_weaken; [|exact Hr]. unfold type_stop. intros c; cbv beta; lia. }
  assert (Hkw : forall kw, forallb is_idchar kw = true -> In kw type_keywords -> g_kw kw (n ++ X) = None).
  { intros kw Hkid Hin. apply g_kw_none; auto. intros E. subst X.
    destruct a as [a|]; [apply kw_anchor_none|]. cbn [anchor_text app].
    destruct ps as [|p ps]; [now apply kw_tail_none|]. exfalso.
    specialize (Hk ltac:(discriminate)). apply is_type_keyword_false in Hk as (H1 & H2 & H3).
    destruct Hin as [<-|[<-|[<-|[]]]]; [now apply H1|now apply H2|now apply H3]. }
  assert (Hint : forall kw f, forallb is_idchar kw = true -> g_kw_int kw f (n ++ X) = None).
  { intros kw f Hkid. destruct (g_kw kw (n ++ X)) as [[nl' r]|] eqn:E.
    2: now apply pbind_none.
    unfold g_kw_int. eapply pbind_some; [exact E|].
    unfold g_kw, pthen at 1, pbind at 1, ptok_ci in E.
    destruct (strip_prefix_ci kw (n ++ X)) as [r1|] eqn:E1; [|discriminate].
    apply strip_prefix_ci_ident in E1 as [[E1 ->]|(c & r' & -> & Hc)]; auto.
    - subst X. destruct a as [a|]; [discriminate|]. cbn [anchor_text app] in E.
      destruct ps as [|p ps].
      + cbn [params_text app] in E. rewrite kw_tail_none in E by auto. discriminate.
      + unfold pbind at 1 in E. cbn [params_text] in E. rewrite <- !app_assoc in E.
        rewrite null_suffix_app in E by reflexivity.
        change (L "<" ++ ?x) with (60%N :: x) in E. cbn in E. injection E as <- <-.
        inversion Hps as [|? ? [Hp Hp0] _]; subst.
        apply pbind_none. unfold g_integer.
        assert (Hhd : hd_not (fun c => is_digit c || (c =? 45)%N)
                        (join (L ", ") (p :: ps) ++ L ">" ++ rest) = true).
        { destruct p as [|c p]; [congruence|]. rewrite join_cons. exact Hp. }
        eapply pbind_some.
        { apply popt_none. apply (ptok_none_hd [] 45%N). eapply hd_not_weaken; [|exact Hhd]. intros c; cbv beta; lia. }
        apply pbind_none. apply pwhile1_none. eapply hd_not_weaken; [|exact Hhd]. intros c; cbv beta; lia.
    - unfold pbind at 1 in E. change (c :: r') with (null_text NRequired ++ c :: r') in E. rewrite null_suffix_app in E.
      + unfold pthen, pbind in E. rewrite (ptok_none_hd [] 60%N) in E; [discriminate|]. cbn [hd_not]. chars.
      + cbn [hd_not]. unfold null_stop, c_unspec. chars. }
  unfold g_compound_type.
  apply palt_r; [apply pbind_none; apply Hkw; [reflexivity|cbn; auto]|].
  apply palt_r; [apply pbind_none; apply Hkw; [reflexivity|cbn; auto]|].
  apply palt_r.
  { specialize (Hkw (L "struct") eq_refl ltac:(cbn; auto)). unfold g_kw, pthen, pbind in Hkw.
    unfold pthen, pbind. destruct (ptok_ci (L "struct") (n ++ X)) as [[u r1]|]; auto.
    destruct (g_null_suffix r1) as [[nl' r2]|]; auto. unfold g_parameters, pthen, pbind.
    destruct (ptok (L "<") r2) as [[u' r3]|]; auto. discriminate. }
  repeat (apply palt_r; [apply Hint; reflexivity|]). apply Hint; reflexivity.
Qed.

(** The text of a user-defined type. *)
Lemma g_user_app n a nl ps cs rest :
  type_name_ok n = true ->
  (ps = [] -> cs = None) ->
  (ps <> [] -> is_type_keyword n = false) ->
  (ps <> [] -> exists l, cs = Some l /\
     g_parameters g_type (params_text ps ++ rest) = Some (l, rest)) ->
  Forall (fun p => hd_not (fun c => is_digit c || (c =? 45)%N) p = true /\ p <> []) ps ->
  hd_not type_stop rest = true ->
  g_type (n ++ anchor_text a ++ null_text nl ++ params_text ps ++ rest) =
    Some (CUser n (option_map show_N a) None nl cs, rest).
Proof.
  intros Hn Hnil Hk Hcs Hps Hr. rewrite g_type_eq. unfold type_F.
  pose proof (type_name_ok_ident n Hn) as (Hi & Hid & Hs).
  assert (Hpr : hd_not (fun c => is_idchar c || (c =? 35)%N || (c =? 64)%N) (params_text ps ++ rest) = true).
  { destruct ps; [|reflexivity]. eapply hd_not_weaken; [|exact Hr]. unfold type_stop. intros c; cbv beta; lia. }
  assert (Hpn : hd_not null_stop (params_text ps ++ rest) = true).
  { destruct ps; [|reflexivity]. eapply hd_not_weaken; [|exact Hr]. unfold type_stop, null_stop. intros c; cbv beta; lia. }
  assert (HX : hd_not is_idchar (anchor_text a ++ null_text nl ++ params_text ps ++ rest) = true).
  { apply anchor_text_head; [reflexivity|]. apply null_text_head; try reflexivity.
    eapply hd_not_weaken; [|exact Hpr]. intros c; cbv beta; lia. }
  apply palt_r; [now apply simple_none|].
  apply palt_r; [now apply compound_none|].
  unfold g_user_type. eapply pthen_some.
  { apply popt_none. unfold ptok. destruct n as [|c n]; [discriminate|].
    destruct (strip_prefix (L "u!") ((c :: n) ++ anchor_text a ++ null_text nl ++ params_text ps ++ rest)) eqn:E; auto.
    apply strip_prefix_spec in E. exfalso. destruct n as [|d n].
    - cbn in E. injection E as _ E. destruct (anchor_text a ++ null_text nl ++ params_text ps ++ rest) as [|x X] eqn:EX;
        [discriminate|]. injection E as -> _.
      destruct a as [a|]; [discriminate|]. cbn [anchor_text app] in EX.
      destruct nl; try discriminate. cbn [null_text app] in EX. destruct ps; [|discriminate].
      cbn [params_text app] in EX. subst. discriminate Hr.
    - injection E as -> -> _. cbn in Hid. discriminate. }
  eapply pbind_some; [apply g_identifier_app; auto|].
  eapply pbind_some with (a := option_map show_N a) (r := null_text nl ++ params_text ps ++ rest).
  { destruct a as [a|]; cbn [anchor_text option_map].
    - apply popt_some. rewrite <- app_assoc. apply anchor_app_N. apply null_text_head; try reflexivity.
      eapply hd_not_weaken; [|exact Hpr]. intros c; cbv beta; chars.
    - apply popt_none. unfold g_anchor. apply pthen_none, (ptok_none_hd [] 35%N).
      apply null_text_head; try reflexivity. eapply hd_not_weaken; [|exact Hpr]. intros c; cbv beta; lia. }
  eapply pbind_some.
  { apply popt_none. unfold g_urn_anchor. apply pthen_none, (ptok_none_hd [] 64%N).
    apply null_text_head; try reflexivity. eapply hd_not_weaken; [|exact Hpr]. intros c; cbv beta; lia. }
  eapply pbind_some; [now apply null_suffix_app|].
  destruct ps as [|p ps].
  - rewrite Hnil by auto. eapply pbind_some; [|reflexivity]. apply popt_none.
    unfold g_parameters. apply pthen_none, (ptok_none_hd [] 60%N).
    eapply hd_not_weaken; [|exact Hr]. unfold type_stop. intros c; cbv beta; lia.
  - destruct Hcs as (l & -> & Hl); [discriminate|]. eapply pbind_some; [|reflexivity]. now apply popt_some.
Qed.

(** ** The round trip *)

Definition ttext (op : options) (e : exts) (t : ptype) : list N := o_text (type_out op e t).

Lemma shown_name_type op e r n : contains_char c_colon n = false -> shown_name op e KType r n = n.
Proof. intros H. unfold shown_name. now destruct (op_anchors op); rewrite ?cn_base_id. Qed.

Lemma ident_no_colon n : forallb is_idchar n = true -> contains_char c_colon n = false.
Proof. intros H. eapply contains_char_class; [exact H|reflexivity]. Qed.

Definition head_alpha (s : list N) : Prop := exists c r, s = c :: r /\ is_alpha c = true.
Lemma head_alpha_not s rest (f : N -> bool) : head_alpha s -> (forall c, is_alpha c = true -> f c = false) ->
  hd_not f (s ++ rest) = true.
Proof. intros (c & r & -> & Hc) Hf. cbn [app hd_not]. now rewrite Hf. Qed.
Lemma head_alpha_app s t : head_alpha s -> head_alpha (s ++ t).
Proof. intros (c & r & -> & Hc). exists c, (r ++ t). auto. Qed.

Lemma textify_type_text op e name n ps :
  o_text (textify_type op e name n 0 ps) = name ++ null_text n ++ params_text (map o_text ps).
Proof.
  unfold textify_type. cbn [oapp o_text txt]. rewrite null_out_text, params_out_text. reflexivity.
Qed.
Lemma user_out_text op e r u nm n ps : wf_exts e -> decl_get e KType r = Some (u, nm) ->
  contains_char c_colon nm = false ->
  o_text (user_out op e r n 0 ps) =
    nm ++ anchor_text (shown_anchor op e KType r nm) ++ null_text n ++ params_text (map o_text ps).
Proof.
  intros W Hd Hc. unfold user_out. rewrite (ref_out_spec _ _ _ _ _ _ W Hd).
  cbn [oapp o_text txt]. rewrite null_out_text, params_out_text, shown_name_type by auto.
  rewrite <- !app_assoc. reflexivity.
Qed.

Lemma type_ok_head op e t : wf_exts e -> type_ok e t = true -> head_alpha (ttext op e t).
Proof.
  intros W. unfold ttext.
  destruct t as [k n v|k p n v|[p|] n v|p n v|k l n v|p s n v|ts n v|[t|] n v|a b n v|r ps n v|r| | | ];
    cbn [type_ok]; try discriminate; intros H.
  - apply N.eqb_eq in H as ->. cbn [type_out]. rewrite textify_type_text. apply head_alpha_app.
    destruct k; do 2 eexists; split; reflexivity.
  - bool_hyps. apply N.eqb_eq in H0 as ->. cbn [type_out]. rewrite textify_type_text. apply head_alpha_app.
    destruct k; do 2 eexists; split; reflexivity.
  - bool_hyps. apply N.eqb_eq in H0 as ->. cbn [type_out]. rewrite textify_type_text. apply head_alpha_app.
    do 2 eexists; split; reflexivity.
  - bool_hyps. apply N.eqb_eq in H0 as ->. cbn [type_out]. rewrite textify_type_text. apply head_alpha_app.
    do 2 eexists; split; reflexivity.
  - destruct (decl_get e KType r) as [[u nm]|] eqn:Hd; [|discriminate]. bool_hyps.
    apply N.eqb_eq in H0 as ->. cbn [type_out].
    destruct (type_name_ok_ident nm H) as (Hi & Hid & _).
    rewrite (user_out_text _ _ _ _ _ _ _ W Hd (ident_no_colon _ Hid)). apply head_alpha_app.
    destruct nm as [|c nm]; [discriminate|]. exists c, nm. split; auto. cbn [is_identifier] in Hi. now bool_hyps.
Qed.

Lemma params_loop_ok {A B} (f : A -> pres B) l ys :
  Forall2 (fun x y => f x = Ok y) l ys -> params_loop f l = Ok ys.
Proof.
  induction 1 as [|x y l ys Hx Hl IH]; cbn [params_loop]; auto.
  fold (params_loop f). rewrite IH. destruct l; rewrite Hx; reflexivity.
Qed.

Theorem type_round_trip op e t :
  wf_exts e -> op_anchors op <> VNever -> type_ok e t = true ->
  exists c, lower_type e c = Ok t /\
    forall rest, hd_not type_stop rest = true -> g_type (ttext op e t ++ rest) = Some (c, rest).
Proof.
  intros W Hop. revert t.
  apply (ptype_ind2
           (fun t => type_ok e t = true -> exists c, lower_type e c = Ok t /\
              forall rest, hd_not type_stop rest = true -> g_type (ttext op e t ++ rest) = Some (c, rest))
           (fun p => match p with
                     | PType t => type_ok e t = true -> exists c, lower_type e c = Ok t /\
                         forall rest, hd_not type_stop rest = true -> g_type (ttext op e t ++ rest) = Some (c, rest)
                     | _ => True
                     end)); cbn [type_ok]; try discriminate; auto; unfold ttext.
  - intros k n v Hv. apply N.eqb_eq in Hv as ->. exists (CSimple (skind_name k) n). split.
    { cbn [lower_type]. now rewrite simple_kind_name. }
    intros rest Hr. cbn [type_out]. rewrite textify_type_text. cbn [map params_text]. rewrite app_nil_r, <- app_assoc.
    rewrite g_type_eq. unfold type_F. apply palt_l. now apply g_simple_app.
  - intros k p n v H. bool_hyps. apply N.eqb_eq in H0 as ->. exists (CPrec k n (show_Z p)). split.
    { cbn [lower_type]. unfold parse_precision. rewrite parse_i32_show.
      - now rewrite H.
      - unfold in_range, i32_min, i32_max in *. lia. }
    intros rest Hr. cbn [type_out]. rewrite textify_type_text. cbn [map params_text join txt o_text].
    rewrite <- !app_assoc. rewrite g_type_eq. unfold type_F. apply palt_r; [destruct k; reflexivity|].
    apply palt_l.
    assert (Hkw : forall kw, forallb (fun c => (to_lower c =? c)%N) kw = true -> forall f,
              g_kw_int kw f (kw ++ null_text n ++ L "<" ++ show_Z p ++ L ">" ++ rest) = Some (f n (show_Z p), rest)).
    { intros kw Hk f. unfold g_kw_int. eapply pbind_some; [now apply g_kw_app|].
      eapply pbind_some; [now apply g_integer_show_Z|]. reflexivity. }
    unfold g_compound_type. destruct k; cbn [preck_name].
    + do 3 (apply palt_r; [reflexivity|]). apply palt_r; [destruct n; reflexivity|].
      apply palt_r; [destruct n; reflexivity|]. apply palt_l. now apply Hkw.
    + do 3 (apply palt_r; [reflexivity|]). apply palt_r; [destruct n; reflexivity|].
      apply palt_l. now apply Hkw.
    + do 3 (apply palt_r; [reflexivity|]). apply palt_l. now apply Hkw.
  - intros [p|] n v H; [|discriminate]. bool_hyps. apply N.eqb_eq in H0 as ->.
    exists (CIntervalDay n (show_Z p)). split.
    { cbn [lower_type]. unfold parse_precision. rewrite parse_i32_show.
      - now rewrite H.
      - unfold in_range, i32_min, i32_max in *. lia. }
    intros rest Hr. cbn [type_out]. rewrite textify_type_text. cbn [map params_text join txt o_text].
    rewrite <- !app_assoc. rewrite g_type_eq. unfold type_F. apply palt_r; [reflexivity|].
    apply palt_l. unfold g_compound_type. do 6 (apply palt_r; [reflexivity|]).
    unfold g_kw_int. eapply pbind_some; [now apply g_kw_app|].
    eapply pbind_some; [now apply g_integer_show_Z|]. reflexivity.
  - intros [t|] n v IH H; [|discriminate]. bool_hyps. apply N.eqb_eq in H0 as ->.
    destruct (IH t eq_refl H) as (c & Hc & Hp). exists (CList n c). split.
    { cbn [lower_type]. now rewrite Hc. }
    intros rest Hr. cbn [type_out]. rewrite textify_type_text. cbn [map params_text join txt o_text].
    rewrite <- !app_assoc. rewrite g_type_eq. unfold type_F. apply palt_r; [reflexivity|].
    apply palt_l. unfold g_compound_type. apply palt_l.
    eapply pbind_some; [now apply g_kw_app|].
    eapply pbind_some; [apply Hp; reflexivity|]. reflexivity.
  - intros r ps n v IH H. destruct (decl_get e KType r) as [[u nm]|] eqn:Hd; [|discriminate].
    bool_hyps. apply N.eqb_eq in H0 as ->.
    destruct (type_name_ok_ident nm H) as (Hi & Hid & _). pose proof (ident_no_colon _ Hid) as Hcol.
    assert (exists l : list (list N * tcst),
              map (param_out op e) ps = map (fun p => param_out op e p) ps /\
              map o_text (map (param_out op e) ps) = map fst l /\
              Forall2 (fun x y => lower_param e x = Ok y) (map (fun x => CPType (snd x)) l) ps /\
              (forall x r, In x l -> hd_not type_stop r = true -> g_type (fst x ++ r) = Some (snd x, r)) /\
              (forall x, In x l -> head_alpha (fst x))) as (l & _ & El & Hl & Hg & Hh).
    { clear H3. induction ps as [|p ps IHps].
      - exists []. split; auto. split; auto. split; [constructor|]. split; [intros ? ? []|intros ? []].
      - inversion IH as [|? ? Hp Hps]; subst. cbn [forallb] in H2. bool_hyps.
        destruct IHps as (l & _ & El & Hl & Hg & Hh); auto.
        destruct p as [| t | | | | | ]; try discriminate.
        destruct (Hp H0) as (c & Hc & Hgc). exists ((ttext op e t, c) :: l). split; auto. split.
        { cbn [map]. now rewrite El. }
        split; [constructor; auto; cbn [lower_param snd]; now rewrite Hc|].
        split.
        + intros x r0 [<-|Hx] Hr0; [now apply Hgc|now apply Hg].
        + intros x [<-|Hx]; [now apply type_ok_head|now apply Hh]. }
    exists (CUser nm (option_map show_N (shown_anchor op e KType r nm)) None n
              (match ps with [] => None | _ => Some (map (fun x => CPType (snd x)) l) end)).
    split.
    { cbn [lower_type].
      replace (anchor_value (option_map show_N (shown_anchor op e KType r nm)))
        with (Ok (shown_anchor op e KType r nm) : pres (option N)).
      2:{ unfold shown_anchor. destruct (op_anchors op); auto.
          - destruct (_ || _); auto. cbn [option_map]; now rewrite anchor_value_show.
          - cbn [option_map]; now rewrite anchor_value_show. }
      cbn [rbind anchor_value].
      pose proof (gva_other_shown op e KType r u nm W Hop ltac:(discriminate) Hcol Hd) as G.
      rewrite shown_name_type in G by auto. rewrite G.
      destruct ps as [|p ps]; [reflexivity|]. erewrite (params_loop_ok (lower_param e)); [reflexivity|exact Hl]. }
    intros rest Hr. cbn [type_out].
    rewrite (user_out_text _ _ _ _ _ _ _ W Hd Hcol). rewrite <- !app_assoc, El.
    apply g_user_app; auto.
    + intros E. destruct ps; auto. destruct l; discriminate.
    + intros E. destruct ps; [destruct l; [now destruct E|discriminate]|]. now apply negb_true_iff.
    + intros E. destruct ps as [|p ps]; [destruct l; [now destruct E|discriminate]|].
      exists (map (fun x => CPType (snd x)) l). split; auto. apply g_parameters_app; auto.
      * destruct l; [discriminate|congruence].
      * intros x r0 Hx. apply head_alpha_not; auto. intros c. unfold is_sp. chars.
    + apply Forall_map, Forall_forall. intros x Hx. specialize (Hh x Hx). split.
      * rewrite <- (app_nil_r (fst x)). apply head_alpha_not; auto. intros c. chars.
      * destruct Hh as (c & r0 & -> & _). discriminate.
Qed.

(** ** No errors for given nullabilities *)

Definition quiet (o : out) : Prop := o_errs o = [] /\ o_toks o = [] /\ o_panics o = [].
Lemma quiet_txt s : quiet (txt s). Proof. now repeat split. Qed.
Lemma quiet_nil : quiet onil. Proof. now repeat split. Qed.
Lemma quiet_app a b : quiet a -> quiet b -> quiet (a +++ b).
Proof. intros (H1 & H2 & H3) (H4 & H5 & H6). unfold quiet. cbn. now rewrite H1, H2, H3. Qed.
Lemma quiet_sep sep l : Forall quiet l -> quiet (osep sep l).
Proof.
  induction l as [|x l IH]; intros H; [apply quiet_nil|]. inversion H; subst.
  destruct l as [|y l]; auto. change (osep sep (x :: y :: l)) with (x +++ txt sep +++ osep sep (y :: l)).
  repeat apply quiet_app; auto using quiet_txt.
Qed.
#[global] Hint Resolve quiet_txt quiet_nil quiet_app quiet_sep : quiet.
Lemma quiet_null n : null_given n = true -> quiet (null_out n).
Proof. destruct n; cbn; [discriminate|auto with quiet..]. Qed.
Lemma quiet_params l : Forall quiet l -> quiet (params_out l).
Proof. destruct l; intros; cbn [params_out]; auto 6 with quiet. Qed.
#[global] Hint Resolve quiet_null quiet_params : quiet.

Lemma type_quiet op e t : wf_exts e -> type_ok e t = true -> nulls_given t = true -> quiet (type_out op e t).
Proof.
  intros W. revert t.
  apply (ptype_ind2
           (fun t => type_ok e t = true -> nulls_given t = true -> quiet (type_out op e t))
           (fun p => match p with
                     | PType t => type_ok e t = true -> nulls_given t = true -> quiet (type_out op e t)
                     | _ => True end)); cbn [type_ok nulls_given type_out]; try discriminate; auto.
  - intros k n v Hv Hn. apply N.eqb_eq in Hv as ->. unfold textify_type. cbn [var_out N.eqb].
    repeat apply quiet_app; auto with quiet.
  - intros k p n v Hv Hn. bool_hyps. apply N.eqb_eq in H0 as ->. unfold textify_type. cbn [var_out N.eqb].
    repeat apply quiet_app; auto with quiet.
  - intros [p|] n v Hv Hn; [|discriminate]. bool_hyps. apply N.eqb_eq in H0 as ->.
    unfold textify_type. cbn [var_out N.eqb]. repeat apply quiet_app; auto with quiet.
  - intros [t|] n v IH Hv Hn; [|discriminate]. bool_hyps. apply N.eqb_eq in H2 as ->.
    unfold textify_type. cbn [var_out N.eqb]. specialize (IH t eq_refl).
    repeat apply quiet_app; auto with quiet.
  - intros r ps n v IH Hv Hn. destruct (decl_get e KType r) as [[u nm]|] eqn:Hd; [|discriminate].
    bool_hyps. apply N.eqb_eq in H2 as ->. unfold user_out. cbn [var_out N.eqb].
    rewrite (ref_out_spec _ _ _ _ _ _ W Hd).
    assert (Forall quiet (map (param_out op e) ps)).
    { apply Forall_map. rewrite Forall_forall in *. rewrite forallb_forall in *. intros p Hp.
      specialize (IH p Hp). specialize (H0 p Hp). specialize (H4 p Hp). destruct p; try discriminate.
      cbn [param_out]. auto. }
    repeat apply quiet_app; auto with quiet.
Qed.

(** ** Everything read is writable *)

Lemma gva_type_decl e a name r : wf_exts e -> get_and_validate_anchor e KType a name = Ok r ->
  exists u n, decl_get e KType r = Some (u, n).
Proof.
  intros W H. unfold get_and_validate_anchor in H. destruct a as [a|].
  - unfold find_by_anchor in H. destruct (decl_get e KType a) as [[u n]|] eqn:E; [|discriminate].
    cbn in H. destruct (_ || _); [|discriminate]. injection H as <-. eauto.
  - unfold lift_missing in H. destruct (find_by_name e KType name) as [a| |] eqn:E; try discriminate.
    injection H as <-. apply find_by_name_ok in E as [(u & Hd) _]; eauto.
Qed.

Lemma params_loop_cons {A B} (f : A -> pres B) x r :
  params_loop f (x :: r) =
    let? y := match r with [] => f x | _ => guard_drop (f x) end in
    let? ys := params_loop f r in Ok (y :: ys).
Proof. reflexivity. Qed.

Lemma params_loop_inv {A B} (f : A -> pres B) l ys :
  params_loop f l = Ok ys -> Forall2 (fun x y => f x = Ok y) l ys.
Proof.
  revert ys; induction l as [|x l IH]; intros ys.
  - intros [= <-]. constructor.
  - rewrite params_loop_cons. intros H.
    assert (exists y, f x = Ok y /\ rbind (params_loop f l) (fun ys => Ok (y :: ys)) = Ok ys) as (y & Hy & H').
    { destruct l; destruct (f x) as [y| |]; cbn [rbind guard_drop] in H; try discriminate; eauto. }
    destruct (params_loop f l) as [ys'| |]; try discriminate. cbn [rbind] in H'. injection H' as <-.
    constructor; auto.
Qed.

Theorem lower_type_writable e c t : wf_exts e -> types_usable e ->
  lower_type e c = Ok t -> type_ok e t = true.
Proof.
  intros W U. revert c t.
  apply (tcst_ind2 (fun c => forall t, lower_type e c = Ok t -> type_ok e t = true)
           (fun c => forall p, lower_param e c = Ok p ->
                       match p with PType t => type_ok e t | _ => false end = true)).
  - intros s n t. cbn [lower_type]. destruct (simple_kind s); [|discriminate]. now intros [= <-].
  - intros n c IH t. cbn [lower_type]. destruct (lower_type e c); try discriminate. intros [= <-].
    cbn [type_ok]. now rewrite IH.
  - discriminate.
  - discriminate.
  - intros k n p t. cbn [lower_type]. unfold parse_precision. destruct (parse_i32 p); [|discriminate].
    destruct (in_range 0 12 z) eqn:E; [|discriminate]. intros [= <-]. cbn [type_ok]. now rewrite E.
  - intros n p t. cbn [lower_type]. unfold parse_precision. destruct (parse_i32 p); [|discriminate].
    destruct (in_range 0 12 z) eqn:E; [|discriminate]. intros [= <-]. cbn [type_ok]. now rewrite E.
  - intros i a u n ps IH t. cbn [lower_type].
    intros H. apply rbind_ok in H as (a' & _ & H). apply rbind_ok in H as (u' & _ & H).
    apply rbind_ok in H as (qs & E & H). apply rbind_ok in H as (r & G & H). injection H as <-.
    destruct (gva_type_decl _ _ _ _ W G) as (ur & nm & Hd).
    cbn [type_ok]. rewrite Hd. destruct (U _ _ _ Hd) as (H1 & H2 & H3). rewrite H1, H2.
    assert (forallb (fun p => match p with PType t => type_ok e t | _ => false end) qs = true) as ->.
    { destruct ps as [l|]; [|now injection E as <-]. specialize (IH l eq_refl).
      apply params_loop_inv in E. apply forallb_forall. clear G. induction E as [|x y l' ys Hx Hl IHl].
      - intros ? [].
      - inversion IH; subst. intros p [<-|Hp]; auto. }
    rewrite N.eqb_refl, !andb_true_r. apply Z.leb_le in H3. rewrite H3. now destruct qs.
  - intros c IH p. cbn [lower_param]. destruct (lower_type e c); try discriminate. intros [= <-]. auto.
  - discriminate.
  - discriminate.
Qed.
