(** C44: the bundled example extensions. *)
From Coq Require Import String List NArith ZArith Bool Lia.
From Verif Require Import Base BaseFacts Utf8 Wire WireFacts Names SpecNames SimpleExt Out Types Literals Exprs ExtArgs Registry SpecRegistry
  Props_Registry SpecPlan Bundled SpecBundled OutClosed ExprsFacts TypesFacts SpecLiterals RelRead Rels Structural Plan LineView.
Import ListNotations.
Local Open Scope string_scope.
Local Open Scope list_scope.

(** ** The registry *)

Definition bundled_registry : registry := match bundled with Ok r => r | _ => registry_new end.
Lemma bundled_is : bundled = Ok bundled_registry.
Proof. reflexivity. Qed.

(** It can be built; it holds the three extensions and no others. *)
Theorem C44_registered : bundled = Ok bundled_registry /\ forall t n,
  has_extension bundled_registry t n = true <->
  In (t, n) [(XtEnhancement, L "PartitionHint"); (XtOptimization, L "PlanHint"); (XtTable, L "BlobStoreRead")].
Proof.
  split; [exact bundled_is|]. intros t n. unfold has_extension.
  change (rg_handlers bundled_registry) with [(XtEnhancement, L "PartitionHint", hint_extension);
    (XtOptimization, L "PlanHint", plan_hint_extension); (XtTable, L "BlobStoreRead", blob_extension)].
  cbn [hget]. cbn [In]. split.
  - repeat match goal with |- context [rkey_eqb ?a ?b] => destruct (rkey_eqb a b) eqn:?E end; intros H; try discriminate.
    + apply rkey_eqb_eq in E. auto.
    + apply rkey_eqb_eq in E0. auto.
    + apply rkey_eqb_eq in E1. auto.
  - intros [H|[H|[H|[]]]]; rewrite <- H; reflexivity.
Qed.

Definition hint_any (h : partition_hint) : any := message_to_any hint_url hint_schema (hint_fields h).
Definition plan_hint_any (s : list N) : any := message_to_any plan_hint_url plan_hint_schema (plan_hint_fields s).
Definition blob_any (m : blob_read) : any := message_to_any blob_url blob_schema (blob_fields m).

(** ** Messages survive their encoding *)

Lemma hint_schema_ok : schema_ok hint_schema.
Proof.
  split; [cbn [map fst]; repeat (apply NoDup_cons; [cbn; intuition discriminate|]); apply NoDup_nil|repeat (apply Forall_cons; [cbn; lia|]); apply Forall_nil].
Qed.
Lemma plan_hint_schema_ok : schema_ok plan_hint_schema.
Proof.
  split; [cbn [map fst]; repeat (apply NoDup_cons; [cbn; intuition discriminate|]); apply NoDup_nil|repeat (apply Forall_cons; [cbn; lia|]); apply Forall_nil].
Qed.
Lemma blob_schema_ok : schema_ok blob_schema.
Proof.
  split; [cbn [map fst]; repeat (apply NoDup_cons; [cbn; intuition discriminate|]); apply NoDup_nil|repeat (apply Forall_cons; [cbn; lia|]); apply Forall_nil].
Qed.

Lemma string_ok s : string_value s -> field_ok (FString s).
Proof. intros [H1 H2]. unfold short in H2. split; [exact H1|]. lia. Qed.

Theorem C44_messages_kept :
  (forall h, hint_value h -> hint_from_any (hint_any h) = Ok h) /\
  (forall s, string_value s -> plan_hint_from_any (plan_hint_any s) = Ok s) /\
  (forall m, blob_value m -> blob_from_any (blob_any m) = Ok m).
Proof.
  split; [|split].
  - intros [l z] (H1 & H2 & H3). unfold hint_from_any. unfold message_of_any, hint_any, message_to_any. cbn [any_url any_value].
    rewrite streqb_refl, decode_encode; [reflexivity|apply hint_schema_ok|]. split; [reflexivity|]. repeat constructor; try exact H1; try exact H2; apply H3.
  - intros s H. unfold plan_hint_from_any. unfold message_of_any, plan_hint_any, message_to_any. cbn [any_url any_value].
    rewrite streqb_refl, decode_encode; [reflexivity|apply plan_hint_schema_ok|]. split; [reflexivity|]. constructor; [now apply string_ok|constructor].
  - intros [p z b] [H1 H2]. unfold blob_from_any. unfold message_of_any, blob_any, message_to_any. cbn [any_url any_value].
    rewrite streqb_refl, decode_encode; [reflexivity|apply blob_schema_ok|]. split; [reflexivity|].
    constructor; [now apply string_ok|]. constructor; [exact H2|]. constructor; [exact I|constructor].
Qed.

(** ** What is accepted *)

Lemma one_name {V} k (l : list (list N * V)) : NoDup (map fst l) -> (forall n w, In (n, w) l -> n = k) -> l = [] \/ exists w, l = [(k, w)].
Proof.
  intros Hd H. destruct l as [|[n w] [|[n' w'] l]]; [now left|right|exfalso].
  - rewrite (H n w) by (cbn; auto). eauto.
  - rewrite (H n w), (H n' w') in Hd by (cbn; auto). inversion Hd as [|? ? X _]; subst. apply X. now left.
Qed.
Lemma two_names {V} k1 k2 (l : list (list N * V)) : NoDup (map fst l) -> (forall n w, In (n, w) l -> n = k1 \/ n = k2) ->
  l = [] \/ (exists w, l = [(k1, w)]) \/ (exists w, l = [(k2, w)]) \/ (exists w w', l = [(k1, w); (k2, w')]) \/ (exists w w', l = [(k2, w); (k1, w')]).
Proof.
  intros Hd H. destruct l as [|[n w] [|[n' w'] [|[n'' w''] l]]]; [now left| | |exfalso].
  - destruct (H n w) as [->| ->]; [cbn; auto| |]; eauto 6.
  - destruct (H n w) as [->| ->]; [cbn; auto| |]; (destruct (H n' w') as [->| ->]; [cbn; auto| |]); eauto 8;
      exfalso; inversion Hd as [|? ? X _]; subst; apply X; now left.
  - cbn [map fst] in Hd. inversion Hd as [|? ? X1 Hd']; subst. inversion Hd' as [|? ? X2 _]; subst. cbn [In] in X1, X2.
    destruct (H n w) as [E|E]; [cbn; auto| |]; (destruct (H n' w') as [E'|E']; [cbn; auto| |]); (destruct (H n'' w'') as [E''|E'']; [cbn; auto| |]); subst; intuition.
Qed.

Lemma strategy_named z s : strategy z s -> strategy_of_name (L s) = Some z /\ strategy_name z = L s /\ strategy_text z = L "&" ++ L s /\ is_identifier (L s) = true.
Proof. intros H. inversion H; subst; repeat split; reflexivity. Qed.
Lemma strategy_of_named s z : strategy_of_name s = Some z -> exists n, strategy z n /\ s = L n.
Proof.
  unfold strategy_of_name, strategies. cbn [find snd].
  repeat match goal with |- context [streqb s (L ?n)] => destruct (streqb s (L n)) eqn:?E end; cbn [option_map fst]; intros H; try discriminate;
    injection H as <-; apply streqb_eq in E || apply streqb_eq in E0 || apply streqb_eq in E1 || apply streqb_eq in E2; subst; eexists; (split; [constructor|reflexivity]).
Qed.

Ltac of_c26 H := apply rbind_ok in H as (?v & H & ?Hd); apply C26_no_argument_ignored in H as (?Ha & ?Hn & _).

(** A hint takes strategies by name and a count; nothing else. *)
Theorem C44_hint_arguments : forall a d, NoDup (map fst (xa_named a)) ->
  (parse_with_type bundled_registry XtEnhancement (L "PartitionHint") a = Ok d <-> exists h, hint_args h a /\ d = hint_any h).
Proof.
  intros a d Hdup. change (parse_with_type bundled_registry XtEnhancement (L "PartitionHint") a) with (let? v := args_parse hint_from_args a in Ok (hint_any v)). split.
  - intros H. of_c26 H. injection Hd as <-. exists v. split; [|reflexivity]. unfold hint_from_args, get_named in *. cbn [answer questions] in Ha, Hn.
    assert (Hk : forall n w, In (n, w) (xa_named a) -> n = L "count").
    { intros n w Hi. specialize (Hn n w Hi). destruct Hn as [?|[Hn|Hn]]; [discriminate|now injection Hn|].
      destruct (imap_get (L "count") (xa_named a)) as [x|]; [|contradiction]. destruct (as_i64 x); contradiction. }
    destruct (one_name _ _ Hdup Hk) as [En|[w En]]; rewrite En in *.
    + cbn [imap_get answer] in Ha. apply rbind_ok in Ha as (l & Hl & Hv). injection Hv as <-. split; [|right; auto].
      cbn [ph_strategies]. apply rlist_ok_inv in Hl. clear - Hl. induction Hl as [|x y xs ys Hx _ IH]; constructor; auto.
      apply rbind_ok in Hx as (s & Hs & Hx). destruct x; try discriminate. injection Hs as ->.
      destruct (strategy_of_name s) as [z|] eqn:E; [|discriminate]. injection Hx as ->. apply strategy_of_named in E as (n & ? & ->). eauto.
    + cbn [imap_get] in Ha. rewrite streqb_refl in Ha. destruct w; try discriminate. cbn [as_i64 answer] in Ha. apply rbind_ok in Ha as (l & Hl & Hv). injection Hv as <-. split; [|left; auto].
      cbn [ph_strategies]. apply rlist_ok_inv in Hl. clear - Hl. induction Hl as [|x y xs ys Hx _ IH]; constructor; auto.
      apply rbind_ok in Hx as (s & Hs & Hx). destruct x; try discriminate. injection Hs as ->.
      destruct (strategy_of_name s) as [z0|] eqn:E; [|discriminate]. injection Hx as ->. apply strategy_of_named in E as (n & ? & ->). eauto.
  - intros ([l z] & [Hp Hc] & ->). cbn [ph_strategies ph_count] in *.
    assert (Hl : rlist (fun v : xvalue => let? s := as_enum v in match strategy_of_name s with
               | Some z => Ok z | None => Err (XInvalidArgument "Unknown PartitionStrategy variant") end) (xa_positional a) = Ok l).
    { clear - Hp. induction Hp as [|y x ys xs (s & Hs & ->) _ IH]; [reflexivity|]. cbn [rlist as_enum rbind].
      destruct (strategy_named _ _ Hs) as (-> & _). cbn [rbind]. now rewrite IH. }
    assert (G : args_parse hint_from_args a = Ok (mk_hint l z)).
    { apply C26_no_argument_ignored. unfold hint_from_args, get_named. cbn [answer questions].
      destruct Hc as [Hc|[-> Hc]]; rewrite Hc; cbn [imap_get]; rewrite ?streqb_refl; cbn [as_i64 answer]; rewrite Hl; cbn [rbind].
      - split; [reflexivity|]. split; [|right; now left]. intros n w [E|[]]. injection E as <- <-. right. now left.
      - split; [reflexivity|]. split; [intros n w []|right; now left]. }
    rewrite G. reflexivity.
Qed.

Theorem C44_plan_hint_arguments : forall a d, NoDup (map fst (xa_named a)) ->
  (parse_with_type bundled_registry XtOptimization (L "PlanHint") a = Ok d <-> exists s, plan_hint_args s a /\ d = plan_hint_any s).
Proof.
  intros a d Hdup. change (parse_with_type bundled_registry XtOptimization (L "PlanHint") a) with (let? v := args_parse plan_hint_from_args a in Ok (plan_hint_any v)). split.
  - intros H. of_c26 H. injection Hd as <-. exists v. split; [|reflexivity]. unfold plan_hint_from_args, expect_named, get_named in *. cbn [answer questions] in Ha, Hn.
    destruct (xa_positional a) as [|x xs] eqn:Ep; [|discriminate]. split; [exact Ep|]. cbn [answer questions] in Ha, Hn.
    assert (Hk : forall n w, In (n, w) (xa_named a) -> n = L "hint").
    { intros n w Hi. specialize (Hn n w Hi). destruct Hn as [?|[Hn|Hn]]; [discriminate|now injection Hn|].
      destruct (imap_get (L "hint") (xa_named a)) as [x|]; [|contradiction]. destruct (as_string x); contradiction. }
    destruct (one_name _ _ Hdup Hk) as [En|[w En]]; rewrite En in *; cbn [imap_get] in Ha; rewrite ?streqb_refl in Ha; [discriminate|].
    destruct w; try discriminate. injection Ha as ->. reflexivity.
  - intros (s & [Hp Hc] & ->).
    assert (G : args_parse plan_hint_from_args a = Ok s).
    { apply C26_no_argument_ignored. unfold plan_hint_from_args, expect_named, get_named. cbn [answer questions].
      rewrite Hp. cbn [answer questions]. rewrite Hc. cbn [imap_get]. rewrite streqb_refl. cbn [as_string answer].
      split; [reflexivity|]. split; [|now left]. intros n w [E|[]]. injection E as <- <-. right. now left. }
    rewrite G. reflexivity.
Qed.

Theorem C44_blob_arguments : forall a d, NoDup (map fst (xa_named a)) ->
  (parse_with_type bundled_registry XtTable (L "BlobStoreRead") a = Ok d <-> exists m, blob_args m a /\ d = blob_any m).
Proof.
  intros a d Hdup. change (parse_with_type bundled_registry XtTable (L "BlobStoreRead") a) with (let? v := args_parse blob_from_args a in Ok (blob_any v)). split.
  - intros H. of_c26 H. injection Hd as <-. exists v. split; [|reflexivity]. unfold blob_from_args, get_named in *. cbn [answer questions] in Ha, Hn.
    destruct (xa_positional a) as [|x [|y xs]] eqn:Ep; try discriminate. cbn [answer questions] in Ha, Hn.
    destruct (xa_columns a) eqn:Ec; [|discriminate]. destruct x as [path| | | | | | | |]; try discriminate. cbn [as_string answer questions] in Ha, Hn.
    assert (Hk : forall n w, In (n, w) (xa_named a) -> n = L "limit" \/ n = L "include_archived").
    { intros n w Hi. specialize (Hn n w Hi). clear - Hn. cbn [In] in Hn. destruct Hn as [?|[?|[Hn|Hn]]]; try discriminate; [left; now injection Hn|].
      destruct (imap_get (L "limit") (xa_named a)) as [x|].
      - destruct (as_i64 x); cbn [questions In] in Hn; try contradiction. destruct Hn as [Hn|Hn]; [right; now injection Hn|].
        destruct (imap_get (L "include_archived") (xa_named a)) as [x'|]; [|contradiction]. destruct (as_bool x'); contradiction.
      - cbn [questions In] in Hn. destruct Hn as [Hn|Hn]; [right; now injection Hn|].
        destruct (imap_get (L "include_archived") (xa_named a)) as [x'|]; [|contradiction]. destruct (as_bool x'); contradiction. }
    pose proof (streqb_refl (L "limit")) as R1. pose proof (streqb_refl (L "include_archived")) as R2.
    assert (R3 : streqb (L "limit") (L "include_archived") = false) by reflexivity.
    assert (R4 : streqb (L "include_archived") (L "limit") = false) by reflexivity.
    unfold blob_args.
    Local Ltac simp_h En R1 R2 R3 R4 Ha := do 4 (cbn [imap_get answer as_i64 as_bool] in Ha; rewrite ?En, ?R1, ?R2, ?R3, ?R4 in Ha).
    destruct (two_names _ _ _ Hdup Hk) as [En|[[w En]|[[w En]|[(w & w' & En)|(w & w' & En)]]]]; rewrite En in *; simp_h En R1 R2 R3 R4 Ha.
    + injection Ha as <-. cbn [br_path br_limit br_archived]. split; [exact Ep|]. split; [exact Ec|].
      exists [], []. unfold optional_int. auto 6.
    + destruct w; try discriminate. simp_h En R1 R2 R3 R4 Ha. injection Ha as <-. cbn [br_path br_limit br_archived]. split; [exact Ep|]. split; [exact Ec|].
      eexists _, []. unfold optional_int. split; [left; reflexivity|]. split; [right; auto|left; reflexivity].
    + destruct w; try discriminate. simp_h En R1 R2 R3 R4 Ha. injection Ha as <-. cbn [br_path br_limit br_archived]. split; [exact Ep|]. split; [exact Ec|].
      eexists [], _. unfold optional_int. split; [right; auto|]. split; [left; reflexivity|left; reflexivity].
    + destruct w; try discriminate. simp_h En R1 R2 R3 R4 Ha. destruct w'; try discriminate. simp_h En R1 R2 R3 R4 Ha. injection Ha as <-. cbn [br_path br_limit br_archived]. split; [exact Ep|]. split; [exact Ec|].
      eexists _, _. unfold optional_int. split; [left; reflexivity|]. split; [left; reflexivity|left; reflexivity].
    + destruct w'; try discriminate. simp_h En R1 R2 R3 R4 Ha. destruct w; try discriminate. simp_h En R1 R2 R3 R4 Ha. injection Ha as <-. cbn [br_path br_limit br_archived]. split; [exact Ep|]. split; [exact Ec|].
      eexists _, _. unfold optional_int. split; [left; reflexivity|]. split; [left; reflexivity|right; reflexivity].
  - intros ([p z b] & (Hp & Hc & l1 & l2 & H1 & H2 & Hn) & ->). cbn [br_path br_limit br_archived] in *.
    assert (R1 := streqb_refl (L "limit")). assert (R2 := streqb_refl (L "include_archived")).
    assert (R3 : streqb (L "limit") (L "include_archived") = false) by reflexivity.
    assert (R4 : streqb (L "include_archived") (L "limit") = false) by reflexivity.
    assert (G : args_parse blob_from_args a = Ok (mk_blob p z b)).
    { apply C26_no_argument_ignored. unfold blob_from_args, get_named. cbn [answer questions].
      rewrite Hp. cbn [answer questions]. rewrite Hc. cbn [answer questions as_string].
      destruct H1 as [->|[-> ->]], H2 as [->|[-> ->]], Hn as [Hn|Hn];
        do 4 (cbn [app imap_get as_i64 as_bool answer questions]; rewrite ?Hn, ?R1, ?R2, ?R3, ?R4);
        (split; [reflexivity|split; [|now right; left]]); intros n w Hi; cbn [In] in Hi;
        repeat (destruct Hi as [E|Hi]; [injection E as <- <-; cbn [In]; auto 6|]); contradiction. }
    rewrite G. reflexivity.
Qed.

(** ** What is written *)

Lemma from_any_url url sch d (vs : list fval) : message_of_any url sch d = Ok vs -> any_url d = L url /\ decode_message sch (any_value d) = Some vs.
Proof.
  unfold message_of_any. destruct (streqb (any_url d) (L url)) eqn:E; [|discriminate]. apply streqb_eq in E.
  destruct (decode_message sch (any_value d)); [|discriminate]. intros [= ->]. auto.
Qed.
Lemma decode_hint d h w : hint_from_any d = Ok h ->
  decode_with_type bundled_registry XtEnhancement d w = Ok (L "PartitionHint",
    mk_xargs (map (fun z => XEnum (strategy_name z)) (ph_strategies h)) (if (ph_count h =? 0)%Z then [] else [(L "count", XInteger (ph_count h))]) []).
Proof.
  intros H. assert (Hu : any_url d = L hint_url). { unfold hint_from_any in H. apply rbind_ok in H as (vs & H & _). now apply from_any_url in H. }
  unfold decode_with_type. rewrite Hu. change (hget (XtEnhancement, L hint_url) (rg_urls bundled_registry)) with (Some (L "PartitionHint")).
  cbv iota. change (hget (XtEnhancement, L "PartitionHint") (rg_handlers bundled_registry)) with (Some hint_extension).
  cbv iota. change (textify_detail hint_extension d w) with (let? x := hint_from_any d in hint_to_args x w). rewrite H. reflexivity.
Qed.
Lemma decode_plan_hint d s w : plan_hint_from_any d = Ok s ->
  decode_with_type bundled_registry XtOptimization d w = Ok (L "PlanHint", mk_xargs [] [(L "hint", XString s)] []).
Proof.
  intros H. assert (Hu : any_url d = L plan_hint_url). { unfold plan_hint_from_any in H. apply rbind_ok in H as (vs & H & _). now apply from_any_url in H. }
  unfold decode_with_type. rewrite Hu. change (hget (XtOptimization, L plan_hint_url) (rg_urls bundled_registry)) with (Some (L "PlanHint")).
  cbv iota. change (hget (XtOptimization, L "PlanHint") (rg_handlers bundled_registry)) with (Some plan_hint_extension).
  cbv iota. change (textify_detail plan_hint_extension d w) with (let? x := plan_hint_from_any d in plan_hint_to_args x w). rewrite H. reflexivity.
Qed.
Lemma decode_blob d m w : blob_from_any d = Ok m ->
  decode_with_type bundled_registry XtTable d w = Ok (L "BlobStoreRead",
    mk_xargs [XString (br_path m)] ((if (br_limit m =? 0)%Z then [] else [(L "limit", XInteger (br_limit m))])
      ++ (if br_archived m then [(L "include_archived", XBoolean true)] else [])) []).
Proof.
  intros H. assert (Hu : any_url d = L blob_url). { unfold blob_from_any in H. apply rbind_ok in H as (vs & H & _). now apply from_any_url in H. }
  unfold decode_with_type. rewrite Hu. change (hget (XtTable, L blob_url) (rg_urls bundled_registry)) with (Some (L "BlobStoreRead")).
  cbv iota. change (hget (XtTable, L "BlobStoreRead") (rg_handlers bundled_registry)) with (Some blob_extension).
  cbv iota. change (textify_detail blob_extension d w) with (let? x := blob_from_any d in blob_to_args x w). rewrite H. reflexivity.
Qed.

Lemma listed_args (U : Unicode) (F : Floats) op e ps ns : 
  o_text (xargs_out op e (mk_xargs ps ns [])) = listed (map (fun v => o_text (xvalue_out op e v)) ps ++ map (fun p => o_text (xnamed_out op e p)) ns).
Proof.
  unfold xargs_out, xarglist_out. cbn [xa_positional xa_named xa_columns]. cbn [oapp o_text onil]. rewrite app_nil_r.
  destruct ps as [|x ps]; [destruct ns as [|y ns]|]; [reflexivity| |]; rewrite osep_text, map_app, !map_map; reflexivity.
Qed.
Lemma strategy_text_name z : strategy_text z = L "&" ++ strategy_name z.
Proof.
  unfold strategy_text, strategy_name, strategies. cbn [find fst].
  destruct (Z.eqb_spec 0 z) as [<-|H0]; [reflexivity|]. destruct (Z.eqb_spec 1 z) as [<-|H1]; [reflexivity|].
  destruct (Z.eqb_spec 2 z) as [<-|H2]; [reflexivity|]. destruct (Z.eqb_spec 3 z) as [<-|H3]; [reflexivity|].
  destruct (Z.to_nat z) as [|[|[|[|n]]]] eqn:E; try lia; [reflexivity|]. now destruct n.
Qed.
(** Whatever its bytes, a message of a bundled type is written as documented: under its
    name, with its strategies or strings and with what is not the default; a strategy
    with an unknown number is written as unspecified. *)
Theorem C44_written : forall (U : Unicode) (F : Floats) op e d w,
  (forall h, hint_from_any d = Ok h ->
     exists a, decode_with_type bundled_registry XtEnhancement d w = Ok (L "PartitionHint", a) /\ o_text (xargs_out op e a) = hint_text h) /\
  (forall s, plan_hint_from_any d = Ok s ->
     exists a, decode_with_type bundled_registry XtOptimization d w = Ok (L "PlanHint", a) /\ o_text (xargs_out op e a) = plan_hint_text s) /\
  (forall m, blob_from_any d = Ok m ->
     exists a, decode_with_type bundled_registry XtTable d w = Ok (L "BlobStoreRead", a) /\ o_text (xargs_out op e a) = blob_text m).
Proof.
  intros U F op e d w. split; [|split].
  - intros h H. eexists. split; [apply decode_hint, H|]. rewrite listed_args. unfold hint_text. f_equal. f_equal.
    + rewrite map_map. apply map_ext. intros z. now rewrite strategy_text_name.
    + unfold int_text. destruct (ph_count h =? 0)%Z; [reflexivity|]. cbn [map xnamed_out xvalue_out fst snd oapp o_text txt]. now rewrite <- app_assoc.
  - intros s H. eexists. split; [apply decode_plan_hint, H|]. rewrite listed_args. cbn [map app listed join xnamed_out xvalue_out fst snd oapp o_text txt]. reflexivity.
  - intros m H. eexists. split; [apply decode_blob, H|]. rewrite listed_args. unfold blob_text, int_text.
    cbn [map app xvalue_out o_text txt]. f_equal. f_equal. rewrite map_app.
    destruct (br_limit m =? 0)%Z, (br_archived m); cbn [map app xnamed_out xvalue_out fst snd oapp o_text txt]; rewrite <- ?app_assoc; reflexivity.
Qed.

(** ** What comes back *)

Lemma hint_bounds d h : Forall (fun x => x < 256)%N (any_value d) -> short (length (any_value d)) -> hint_from_any d = Ok h -> hint_value h.
Proof.
  intros Hb Hs H. unfold hint_from_any in H. apply rbind_ok in H as (vs & H & Hv). apply from_any_url in H as [_ H].
  apply decode_bounded in H as [_ H]; [|exact Hb]. destruct vs as [|[| | |l] [|[|z| |] [|]]]; try discriminate. injection Hv as <-.
  inversion H as [|? ? H1 H2]; subst. inversion H2 as [|? ? H3 _]; subst. cbn [bounded] in *. destruct H1 as [H1 H1'].
  split; [exact H1|]. split; [|exact H3]. unfold short in *. cbn [ph_strategies]. lia.
Qed.
Lemma plan_hint_bounds d s : Forall (fun x => x < 256)%N (any_value d) -> short (length (any_value d)) -> plan_hint_from_any d = Ok s -> string_value s.
Proof.
  intros Hb Hs H. unfold plan_hint_from_any in H. apply rbind_ok in H as (vs & H & Hv). apply from_any_url in H as [_ H].
  apply decode_bounded in H as [_ H]; [|exact Hb]. destruct vs as [|[s'| | |] [|]]; try discriminate. injection Hv as <-.
  inversion H as [|? ? H1 _]; subst. cbn [bounded] in *. destruct H1 as [H1 H1']. split; [exact H1|]. unfold short in *. lia.
Qed.
Lemma blob_bounds d m : Forall (fun x => x < 256)%N (any_value d) -> short (length (any_value d)) -> blob_from_any d = Ok m -> blob_value m.
Proof.
  intros Hb Hs H. unfold blob_from_any in H. apply rbind_ok in H as (vs & H & Hv). apply from_any_url in H as [_ H].
  apply decode_bounded in H as [_ H]; [|exact Hb]. destruct vs as [|[s'| | |] [|[|z| |] [|[| |b|] [|]]]]; try discriminate. injection Hv as <-.
  inversion H as [|? ? H1 H2]; subst. inversion H2 as [|? ? H3 _]; subst. cbn [bounded] in *. destruct H1 as [H1 H1'].
  split; [split; [exact H1|]|exact H3]. unfold short in *. cbn [br_path]. lia.
Qed.

Lemma hint_args_back h (K : known_strategies h) cols : hint_args h
  (mk_xargs (map (fun z => XEnum (strategy_name z)) (ph_strategies h)) (if (ph_count h =? 0)%Z then [] else [(L "count", XInteger (ph_count h))]) cols).
Proof.
  split; cbn [xa_positional xa_named].
  - induction K as [|z l [s Hs] _ IH]; [constructor|]. cbn [map]. constructor; [|exact IH]. exists s. split; [exact Hs|].
    destruct (strategy_named _ _ Hs) as (_ & -> & _). reflexivity.
  - destruct (Z.eqb_spec (ph_count h) 0); [now right|now left].
Qed.
Lemma blob_args_back m : blob_args m
  (mk_xargs [XString (br_path m)] ((if (br_limit m =? 0)%Z then [] else [(L "limit", XInteger (br_limit m))])
      ++ (if br_archived m then [(L "include_archived", XBoolean true)] else [])) []).
Proof.
  split; [reflexivity|]. split; [reflexivity|]. cbn [xa_named].
  eexists (if (br_limit m =? 0)%Z then [] else _), (if br_archived m then _ else []). split; [|split; [|left; reflexivity]].
  - destruct (Z.eqb_spec (br_limit m) 0); [now right|now left].
  - destruct (br_archived m); auto.
Qed.
Lemma nodup_one (n : list N) (b : bool) (v : xvalue) : NoDup (map fst (if b then [] else [(n, v)])).
Proof. destruct b; repeat constructor; auto. Qed.
Lemma nodup_blob m : NoDup (map fst ((if (br_limit m =? 0)%Z then [] else [(L "limit", XInteger (br_limit m))])
      ++ (if br_archived m then [(L "include_archived", XBoolean true)] else []))).
Proof.
  destruct (br_limit m =? 0)%Z, (br_archived m); cbn [app map fst]; repeat (apply NoDup_cons; [cbn; intuition discriminate|]); apply NoDup_nil.
Qed.

(** The text of a message, of whatever bytes, is read back as the same message. *)
Theorem C44_message_survives : forall d w, Forall (fun x => x < 256)%N (any_value d) -> short (length (any_value d)) ->
  (forall h, hint_from_any d = Ok h -> known_strategies h ->
     exists a d', decode_with_type bundled_registry XtEnhancement d w = Ok (L "PartitionHint", a) /\
       parse_with_type bundled_registry XtEnhancement (L "PartitionHint") a = Ok d' /\ hint_from_any d' = Ok h) /\
  (forall s, plan_hint_from_any d = Ok s ->
     exists a d', decode_with_type bundled_registry XtOptimization d w = Ok (L "PlanHint", a) /\
       parse_with_type bundled_registry XtOptimization (L "PlanHint") a = Ok d' /\ plan_hint_from_any d' = Ok s) /\
  (forall m, blob_from_any d = Ok m ->
     exists a d', decode_with_type bundled_registry XtTable d w = Ok (L "BlobStoreRead", a) /\
       parse_with_type bundled_registry XtTable (L "BlobStoreRead") a = Ok d' /\ blob_from_any d' = Ok m).
Proof.
  intros d w Hb Hs. destruct C44_messages_kept as (M1 & M2 & M3). split; [|split].
  - intros h H K. do 2 eexists. split; [apply decode_hint, H|]. split; [|apply M1; eapply hint_bounds; eauto].
    apply C44_hint_arguments; [apply nodup_one|]. exists h. split; [now apply hint_args_back|reflexivity].
  - intros s H. do 2 eexists. split; [apply decode_plan_hint, H|]. split; [|apply M2; eapply plan_hint_bounds; eauto].
    apply C44_plan_hint_arguments; [exact (nodup_one (L "hint") false (XString s))|]. exists s. split; [split; reflexivity|reflexivity].
  - intros m H. do 2 eexists. split; [apply decode_blob, H|]. split; [|apply M3; eapply blob_bounds; eauto].
    apply C44_blob_arguments; [apply nodup_blob|]. exists m. split; [apply blob_args_back|reflexivity].
Qed.

(** A hint with unknown strategies comes back with those unspecified, and the same otherwise. *)
Definition made_known (h : partition_hint) : partition_hint :=
  mk_hint (map (fun z => if (0 <=? z)%Z && (z <=? 3)%Z then z else 0%Z) (ph_strategies h)) (ph_count h).
Lemma strategy_name_known z : strategy_name (if (0 <=? z)%Z && (z <=? 3)%Z then z else 0%Z) = strategy_name z.
Proof.
  destruct ((0 <=? z)%Z && (z <=? 3)%Z) eqn:E; [reflexivity|]. unfold strategy_name, strategies. cbn [find fst].
  destruct (Z.eqb_spec 0 z) as [<-|H0]; [reflexivity|]. destruct (Z.eqb_spec 1 z) as [<-|H1]; [discriminate|].
  destruct (Z.eqb_spec 2 z) as [<-|H2]; [discriminate|]. destruct (Z.eqb_spec 3 z) as [<-|H3]; [discriminate|]. reflexivity.
Qed.
Lemma made_known_known h : known_strategies (made_known h).
Proof.
  apply Forall_map, Forall_forall. intros z _. destruct ((0 <=? z)%Z && (z <=? 3)%Z) eqn:E; [|eexists; apply st_unspecified].
  assert (C : z = 0%Z \/ z = 1%Z \/ z = 2%Z \/ z = 3%Z) by lia. destruct C as [-> | [-> | [-> | -> ]]]; eexists; constructor.
Qed.
Lemma made_known_value h : hint_value h -> hint_value (made_known h).
Proof.
  intros (H1 & H2 & H3). split; [|split; [unfold made_known; cbn [ph_strategies]; now rewrite map_length|exact H3]].
  apply Forall_map. eapply Forall_impl; [|exact H1]. intros z Hz. cbv beta in *. destruct ((0 <=? z)%Z && (z <=? 3)%Z); [exact Hz|split; discriminate].
Qed.
Theorem C44_hint_survives : forall d w h, Forall (fun x => x < 256)%N (any_value d) -> short (length (any_value d)) ->
  hint_from_any d = Ok h ->
  exists a d', decode_with_type bundled_registry XtEnhancement d w = Ok (L "PartitionHint", a) /\
    parse_with_type bundled_registry XtEnhancement (L "PartitionHint") a = Ok d' /\ hint_from_any d' = Ok (made_known h).
Proof.
  intros d w h Hb Hs H. destruct C44_messages_kept as (M1 & _). do 2 eexists. split; [apply decode_hint, H|].
  split; [|apply M1, made_known_value; eapply hint_bounds; eauto].
  apply C44_hint_arguments; [apply nodup_one|]. exists (made_known h). split; [|reflexivity].
  pose proof (hint_args_back (made_known h) (made_known_known h) []) as K. unfold made_known in K at 2 3 4. cbn [ph_strategies ph_count] in K.
  rewrite map_map in K. erewrite map_ext in K; [exact K|]. intros z. cbn beta. now rewrite strategy_name_known.
Qed.

(** A message as the extension itself encodes it is one the text format can carry, in any
    plan: the strategies must be known and the strings printable or escapable. *)
Theorem C44_writable : forall (U : Unicode) (F : Floats) e X T w,
  (forall h, hint_value h -> known_strategies h -> detail_writable bundled_registry e X T XtEnhancement (hint_any h) w []) /\
  (forall s, string_value s -> str_ok s = true -> detail_writable bundled_registry e X T XtOptimization (plan_hint_any s) w []) /\
  (forall m, blob_value m -> str_ok (br_path m) = true -> detail_writable bundled_registry e X T XtTable (blob_any m) w []).
Proof.
  intros U F e X T w. destruct C44_messages_kept as (M1 & M2 & M3). split; [|split].
  - intros h H K. do 2 eexists. split; [apply decode_hint, M1, H|]. split; [|split; [reflexivity|split; [|reflexivity]]].
    + apply C44_hint_arguments; [apply nodup_one|]. exists h. split; [now apply hint_args_back|reflexivity].
    + split; [|split; [|split; [apply nodup_one|constructor]]]; cbn [xa_positional xa_named].
      * apply Forall_map. eapply Forall_impl; [|exact K]. intros z [s Hs]. constructor. destruct (strategy_named _ _ Hs) as (_ & -> & _ & ->). reflexivity.
      * destruct (ph_count h =? 0)%Z; [constructor|]. constructor; [|constructor]. split; [reflexivity|]. split; [reflexivity|]. constructor.
        destruct H as (_ & _ & H). unfold int64_value in H. unfold in_range, i64_min, i64_max. cbn [snd]. lia.
  - intros s H Hk. do 2 eexists. split; [apply decode_plan_hint, M2, H|]. split; [|split; [reflexivity|split; [|reflexivity]]].
    + apply C44_plan_hint_arguments; [exact (nodup_one (L "hint") false (XString s))|]. exists s. split; [split; reflexivity|reflexivity].
    + split; [constructor|]. split; [|split; [exact (nodup_one (L "hint") false (XString s))|constructor]].
      constructor; [|constructor]. split; [reflexivity|]. split; [reflexivity|]. now constructor.
  - intros m H Hk. do 2 eexists. split; [apply decode_blob, M3, H|]. split; [|split; [reflexivity|split; [|reflexivity]]].
    + apply C44_blob_arguments; [apply nodup_blob|]. exists m. split; [apply blob_args_back|reflexivity].
    + split; [|split; [|split; [apply nodup_blob|constructor]]]; cbn [xa_positional xa_named].
      * constructor; [|constructor]. now constructor.
      * apply Forall_app. split.
        -- destruct (br_limit m =? 0)%Z; [constructor|]. constructor; [|constructor]. split; [reflexivity|]. split; [reflexivity|]. constructor.
           destruct H as (_ & H). unfold int64_value in H. unfold in_range, i64_min, i64_max. cbn [snd]. lia.
        -- destruct (br_archived m); [|constructor]. constructor; [|constructor]. split; [reflexivity|]. split; [reflexivity|]. constructor.
Qed.

(** Integers are encoded in groups of seven bits, and such groups are what is decoded. *)
Theorem C44_varints :
  (forall n, (n < 18446744073709551616)%N -> base128 (encode_varint n) n) /\
  (forall b n r, Forall (fun x => x < 256)%N b -> decode_varint b = Some (n, r) ->
     (n < 18446744073709551616)%N /\ exists v, b = v ++ r /\ base128 v n).
Proof.
  split.
  - assert (G : forall f n, (n < 2 * 128 ^ N.of_nat f)%N -> base128 (varint f n) n).
    { induction f as [|f IH]; intros n H; cbn [varint].
      - cbn in H. constructor. lia.
      - destruct (N.ltb_spec n 128) as [C|C]; [now constructor|].
        rewrite (N.div_mod n 128) at 3 by discriminate. rewrite (N.add_comm (128 * _)).
        constructor; [apply mod128|]. apply IH. apply N.div_lt_upper_bound; [discriminate|]. rewrite Nat2N.inj_succ, N.pow_succ_r' in H. lia. }
    intros n Hn. exact (G 9%nat n Hn).
  - intros b n r Hb H. split; [now apply decode_varint_bytes in H|]. unfold decode_varint in H. revert b n r Hb H. generalize 9%nat.
    induction n as [|f IH]; intros [|x b] n r Hb H; cbn [unvarint] in H; try discriminate; inversion Hb as [|? ? Hx Hb']; subst;
      destruct (N.ltb_spec x 128) as [C|C]; try discriminate.
    + destruct (N.ltb_spec x 2); [|discriminate]. injection H as <- <-. exists [x]. split; [reflexivity|]. constructor. exact C.
    + injection H as <- <-. exists [x]. split; [reflexivity|]. constructor. exact C.
    + destruct (unvarint f b) as [[n' r']|] eqn:E; [|discriminate]. apply IH in E as (v & -> & Hv); [|exact Hb'].
      exists (x :: v). cbv beta in Hx.
      assert (En : n = (x - 128 + 128 * n')%N) by congruence. assert (r' = r) by congruence. subst n r'.
      split; [reflexivity|]. replace x with (x - 128 + 128)%N at 1 by lia. constructor; [lia|exact Hv].
Qed.

(** ** Examples, and what is lost *)

Section Examples.
  #[local] Existing Instance ascii_tables.
  #[local] Existing Instance toy_floats.

  (** The bytes of the protocol buffers documentation. *)
  Example bx_wire : encode_varint 150 = [150; 1]%N /\ encode_field 2 (FString (L "testing")) = [18; 7]%N ++ L "testing" /\
    encode_field 6 (FEnums [3; 270; 86942]%Z) = [50; 6; 3; 142; 2; 158; 167; 5]%N /\
    encode_field 1 (FInt64 (-2)) = [8; 254; 255; 255; 255; 255; 255; 255; 255; 255; 1]%N.
  Proof. vm_compute. auto. Qed.

  Definition bx_hint : partition_hint := mk_hint [1; 3]%Z 8.
  Example bx_values : hint_value bx_hint /\ known_strategies bx_hint /\ hint_text bx_hint = L "&HASH, &BROADCAST, count=8" /\
    hint_text (mk_hint [] 0) = L "_".
  Proof.
    split; [|split; [|split; reflexivity]].
    - split; [repeat constructor; discriminate|]. split; [reflexivity|]. split; discriminate.
    - repeat constructor; eexists; constructor.
  Qed.

  (** Not only canonical bytes are understood: unknown fields are passed over, single
      and packed values mixed. *)
  Definition bx_bytes : list N := [8; 1; 26; 2; 65; 66; 10; 1; 3; 35; 8; 0; 36; 16; 0; 16; 8]%N.
  Example bx_decode : hint_from_any (mk_any (L hint_url) bx_bytes) = Ok bx_hint.
  Proof. vm_compute. reflexivity. Qed.

  Definition bx_text : list N := unl [L "=== Plan"; L "Root[id, payload]"; L "  Filter[$0 => $0, $1]";
    L "    + Enh:PartitionHint[&HASH, &BROADCAST, count=8]"; L "    + Opt:PlanHint[hint='use_index']"; L "    + Opt:PlanHint[hint='say \'hi\'']";
    L "    Read:Extension[id:i64, payload:string]"; L "      + Ext:BlobStoreRead['path/to/file', limit=-100, include_archived=true]"].
  Example bx_plan : exists p, parse bundled_registry bx_text = Ok p /\ p <> mk_plan plan_rel None [] [] [] /\
    o_errs (format bundled_registry opts_default p) = [] /\ o_text (format bundled_registry opts_default p) = bx_text.
  Proof. eexists. split; [vm_compute; reflexivity|]. split; [discriminate|]. split; vm_compute; reflexivity. Qed.

  (** A strategy the reader's version of the extension does not know is written, without
      an error, as no strategy at all. *)
  Theorem C44_unknown_strategy_refuted : exists h a d', hint_value h /\
    decode_with_type bundled_registry XtEnhancement (hint_any h) [] = Ok (L "PartitionHint", a) /\
    parse_with_type bundled_registry XtEnhancement (L "PartitionHint") a = Ok d' /\ hint_from_any d' <> Ok h.
  Proof.
    exists (mk_hint [7]%Z 2). do 2 eexists. split.
    - split; [repeat constructor; discriminate|]. split; [reflexivity|]. split; discriminate.
    - split; [vm_compute; reflexivity|]. split; [vm_compute; reflexivity|]. vm_compute. discriminate.
  Qed.
  (** Strategies 7 and -1 are lost, 2 is kept. *)
  Example bx_unknown : hint_from_any (hint_any (mk_hint [7; 2; -1]%Z 2)) = Ok (mk_hint [7; 2; -1]%Z 2) /\
    hint_text (mk_hint [7; 2; -1]%Z 2) = L "&UNSPECIFIED, &RANGE, &UNSPECIFIED, count=2" /\
    made_known (mk_hint [7; 2; -1]%Z 2) = mk_hint [0; 2; 0]%Z 2.
  Proof. vm_compute. auto. Qed.
  (** Bytes that are not as prost writes them come back as prost writes them; unknown
      fields are lost. *)
  Theorem C44_bytes_refuted : exists d a d', 
    decode_with_type bundled_registry XtEnhancement d [] = Ok (L "PartitionHint", a) /\
    parse_with_type bundled_registry XtEnhancement (L "PartitionHint") a = Ok d' /\ d' <> d.
  Proof.
    exists (mk_any (L hint_url) bx_bytes). do 2 eexists. split; [vm_compute; reflexivity|]. split; [vm_compute; reflexivity|]. vm_compute. discriminate.
  Qed.
End Examples.
Print Assumptions C44_hint_survives.
