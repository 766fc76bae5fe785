(** Proofs about the text of extension references. *)
From Coq Require Import String List NArith ZArith Bool Lia ZifyN ZifyNat ZifyBool.
From Verif Require Import Base BaseFacts Peg PegFacts Names NamesFacts OMap SimpleExt SpecExt Out Anchors
  SimpleExtFacts.
Import ListNotations.

Lemma strict_short_arg_name : strict g_short_arg_name.
Proof. unfold g_short_arg_name. peg_shrink. Qed.
#[global] Hint Resolve strict_short_arg_name : peg.
Lemma strict_short_arg_type : strict g_short_arg_type.
Proof. unfold g_short_arg_type. peg_shrink. Qed.
#[global] Hint Resolve strict_short_arg_type : peg.
Lemma strict_argument_signature : strict g_argument_signature.
Proof. unfold g_argument_signature. peg_shrink. Qed.
#[global] Hint Resolve strict_argument_signature : peg.
Lemma shrinks_signature_suffix : shrinks g_signature_suffix.
Proof. unfold g_signature_suffix. peg_shrink. Qed.
#[global] Hint Resolve shrinks_signature_suffix : peg.
Lemma strict_function_signature : strict g_function_signature.
Proof. unfold g_function_signature. peg_shrink. Qed.
Lemma strict_anchor : strict g_anchor.
Proof. unfold g_anchor. peg_shrink. Qed.
Lemma strict_urn_anchor : strict g_urn_anchor.
Proof. unfold g_urn_anchor. peg_shrink. Qed.
#[global] Hint Resolve strict_function_signature strict_anchor strict_urn_anchor : peg.
Lemma strict_function_reference : strict g_function_reference.
Proof. unfold g_function_reference. peg_shrink. Qed.
#[global] Hint Resolve strict_function_reference : peg.

Lemma short_name_app s rest : short_name_ok s = true -> hd_not is_alnum rest = true ->
  g_short_arg_name (s ++ rest) = Some (s, rest).
Proof.
  destruct s as [|c r]; cbn [short_name_ok]; [discriminate|]. intros H Hr; bool_hyps.
  unfold g_short_arg_name. cbn [app]. eapply pbind_some.
  - unfold pchar. now rewrite H.
  - eapply pbind_some; [now apply pwhile_app|reflexivity].
Qed.

(** What may follow an argument type. *)
Definition sig_stop (c : N) : bool := is_alnum c || (c =? 33)%N.

Lemma hd_not_weaken (f g : N -> bool) s : (forall c, g c = true -> f c = true) ->
  hd_not f s = true -> hd_not g s = true.
Proof.
  intros Hfg. destruct s as [|c s]; cbn; auto. rewrite !negb_true_iff. intros H.
  destruct (g c) eqn:E; auto. apply Hfg in E. congruence.
Qed.

Lemma arg_type_app s rest : arg_type_ok s = true -> hd_not sig_stop rest = true ->
  g_short_arg_type (s ++ rest) = Some (s, rest).
Proof.
  intros H Hr.
  assert (Hr' : hd_not is_alnum rest = true).
  { eapply hd_not_weaken; [|exact Hr]. unfold sig_stop. intros c ->. auto. }
  assert (Hcase : (exists r, s = L "u!" ++ r /\ short_name_ok r = true) \/
                  (short_name_ok s = true /\ ptok (L "u!") (s ++ rest) = None)).
  { unfold arg_type_ok in H. destruct (strip_prefix (L "u!") s) as [r|] eqn:E.
    - left. apply strip_prefix_spec in E. eauto.
    - right. split; auto. destruct (ptok (L "u!") (s ++ rest)) as [[u r]|] eqn:Et; auto. exfalso.
      apply ptok_spec in Et. destruct s as [|x [|y s]]; [discriminate| |].
      + destruct rest as [|z rest]; [discriminate|]. cbn in Et. injection Et as -> -> _.
        discriminate.
      + cbn in Et. injection Et as -> -> _. discriminate. }
  unfold g_short_arg_type. destruct Hcase as [(r & -> & Hs)|[Hs Hn]].
  - apply palt_l. eapply pthen_some; [apply (ptok_app (L "u!"))|].
    eapply pbind_some; [now apply short_name_app|reflexivity].
  - apply palt_r; [now apply pthen_none|now apply short_name_app].
Qed.

Lemma split_on_nonempty c s : exists p ps, split_on c s = p :: ps.
Proof.
  destruct s as [|x s]; cbn; eauto. destruct (x =? c)%N; eauto. destruct (split_on c s); eauto.
Qed.

Lemma split_on_join c s : join [c] (split_on c s) = s.
Proof.
  induction s as [|x s IH]; auto. cbn [split_on].
  destruct (split_on_nonempty c s) as (p & ps & E). rewrite E in *.
  destruct (N.eqb_spec x c) as [->|Hx].
  - transitivity (c :: join [c] (p :: ps)); [reflexivity|]. now rewrite IH.
  - rewrite <- IH. destruct ps; reflexivity.
Qed.

Definition sig_follow (c : N) : bool := is_idchar c || (c =? 33)%N || (c =? 58)%N.

Lemma argument_signature_app s rest :
  forallb arg_type_ok (split_on c_under s) = true -> hd_not sig_follow rest = true ->
  g_argument_signature (s ++ rest) = Some (s, rest).
Proof.
  intros H Hr. destruct (split_on_nonempty c_under s) as (p & ps & E).
  pose proof (split_on_join c_under s) as Es. rewrite E in *. rewrite <- Es. clear E Es s.
  rewrite join_cons. rewrite <- app_assoc.
  cbn [forallb] in H. bool_hyps.
  assert (Hstop : hd_not sig_stop rest = true).
  { eapply hd_not_weaken; [|exact Hr]. unfold sig_stop, sig_follow, is_idchar. intros c Hc.
    apply orb_true_iff in Hc as [-> | ->]; rewrite ?orb_true_r; reflexivity. }
  unfold g_argument_signature. eapply pbind_some.
  { apply arg_type_app; auto. destruct ps as [|q ps]; cbn; auto. }
  eapply pbind_some.
  { rewrite forallb_forall in H0.
    eapply (pstar_items _ (fun y => [c_under] ++ y) (fun y => y) (fun r => hd_not sig_stop r = true)); auto.
    - peg_shrink.
    - intros x r Hx Hrr. rewrite <- app_assoc. eapply pthen_some; [apply (ptok_app (L "_"))|].
      apply arg_type_app; auto.
    - apply pthen_none. apply (ptok_none_hd [] 95%N).
      eapply hd_not_weaken; [|exact Hr]. intros c Hc. unfold sig_follow, is_idchar, c_under.
      apply N.eqb_eq in Hc; subst. reflexivity. }
  unfold pret. rewrite map_id. reflexivity.
Qed.

Lemma function_signature_app n rest :
  fn_name_ok n = true -> hd_not sig_follow rest = true ->
  g_function_signature (n ++ rest) = Some (n, rest).
Proof.
  intros H Hr.
  assert (Hid : hd_not is_idchar rest = true).
  { eapply hd_not_weaken; [|exact Hr]. unfold sig_follow. now intros c ->. }
  assert (Hcol : ptok (L ":") rest = None).
  { apply (ptok_none_hd [] 58%N). eapply hd_not_weaken; [|exact Hr]. intros c Hc.
    apply N.eqb_eq in Hc; subst. reflexivity. }
  unfold fn_name_ok in H. destruct (split_at_char c_colon n) as [[b s]|] eqn:E.
  - apply split_at_char_spec in E as [-> Hb].
    assert (Hbi : is_identifier b = true) by (destruct s; bool_hyps; auto).
    assert (Hs : popt g_argument_signature (s ++ rest) =
                 Some (match s with [] => None | _ => Some s end, rest)).
    { destruct s as [|x s].
      - apply popt_none. unfold g_argument_signature. apply pbind_none.
        unfold g_short_arg_type. apply palt_r.
        + apply pthen_none. apply (ptok_none_hd (L "!") 117%N).
          eapply hd_not_weaken; [|exact Hr]. intros c Hc. apply N.eqb_eq in Hc; subst. reflexivity.
        + unfold g_short_arg_name. apply pbind_none.
          destruct rest as [|z rest]; auto. cbn. cbn in Hid.
          unfold is_idchar, is_alnum in Hid. destruct (is_alpha z); [discriminate|auto].
      - apply popt_some. bool_hyps. now apply argument_signature_app. }
    unfold g_function_signature. rewrite <- app_assoc. eapply pbind_some.
    { apply g_identifier_app; auto. }
    eapply pbind_some.
    { unfold g_signature_suffix. cbn [app]. eapply pbind_some; [|reflexivity].
      apply popt_some. eapply pthen_some; [apply (ptok_app (L ":"))|exact Hs]. }
    unfold pret. destruct s; reflexivity.
  - unfold g_function_signature. eapply pbind_some; [now apply g_identifier_app|].
    eapply pbind_some.
    { unfold g_signature_suffix. eapply pbind_some; [apply popt_none, pthen_none; auto|reflexivity]. }
    unfold pret. now rewrite app_nil_r.
Qed.

Lemma fn_name_ok_base n : fn_name_ok n = true -> fn_name_ok (cn_base n) = true.
Proof.
  intros H. pose proof (cn_base_no_colon n) as Hc. unfold fn_name_ok in *.
  rewrite (proj1 (split_at_char_none _ _) Hc). unfold cn_base.
  destruct (split_at_char c_colon n) as [[b s]|]; auto. destruct s; bool_hyps; auto.
Qed.

Lemma anchor_app_N a rest : hd_not is_digit rest = true ->
  g_anchor (L "#" ++ show_N a ++ rest) = Some (show_N a, rest).
Proof.
  intros Hr. unfold g_anchor. eapply pthen_some; [apply ptok_app|].
  eapply pthen_some; [apply sp_none, digit_head_not; intros; unfold is_sp; chars|].
  now apply g_integer_show_N.
Qed.

(** The opening parenthesis of the argument list follows a reference. *)
Lemma function_reference_app n a rest :
  fn_name_ok n = true ->
  g_function_reference (n ++ anchor_text a ++ L "(" ++ rest) =
    Some (mk_fref n (option_map show_N a) None, L "(" ++ rest).
Proof.
  intros Hn. unfold g_function_reference. eapply pbind_some.
  { apply function_signature_app; auto. destruct a; reflexivity. }
  destruct a as [a|]; cbn [anchor_text option_map].
  - rewrite <- app_assoc. eapply pthen_some; [apply sp_none; reflexivity|].
    eapply pbind_some; [apply popt_some; apply anchor_app_N; reflexivity|].
    eapply pthen_some; [apply sp_none; reflexivity|].
    eapply pbind_some; [apply popt_none; reflexivity|]. reflexivity.
  - cbn [app]. eapply pthen_some; [apply sp_none; reflexivity|].
    eapply pbind_some; [apply popt_none; reflexivity|].
    eapply pthen_some; [apply sp_none; reflexivity|].
    eapply pbind_some; [apply popt_none; reflexivity|]. reflexivity.
Qed.

Lemma anchor_value_show a : (Z.of_N a <=? u32_max)%Z = true ->
  anchor_value (Some (show_N a)) = Ok (Some a).
Proof. intros H. unfold anchor_value. rewrite parse_u32_show by auto. reflexivity. Qed.
