(** The extension section: what is written is read back. *)
From Coq Require Import String List NArith ZArith Bool Lia PeanoNat ZifyBool ZifyN.
From Verif Require Import Base BaseFacts OMap Peg PegFacts Names NamesFacts SimpleExt SpecExt Out Anchors
  AnchorsFacts SimpleExtFacts FromExtFacts ExtLines SpecExtLines Lines LinesFacts.
Import ListNotations.

(** ** Lines *)

Lemma span_exact_spaces k t : hd_not is_sp t = true ->
  span (fun c => (c =? c_sp)%N) (repeat c_sp k ++ t) = (repeat c_sp k, t).
Proof. intros H. apply span_app; auto. induction k; auto. Qed.

Lemma indented_at k t : t <> [] -> hd_not is_sp t = true -> trim_end t = t ->
  indented (repeat c_sp (2 * k) ++ t) = (k, t).
Proof.
  intros Hn Hs Ht. unfold indented.
  assert (E : trim_end (repeat c_sp (2 * k) ++ t) = repeat c_sp (2 * k) ++ t).
  { unfold trim_end in *. rewrite trim_end_by_app; [now rewrite Ht|]. now rewrite Ht. }
  rewrite E, span_exact_spaces by auto. cbn [fst]. rewrite repeat_length, Nat.div2_double.
  f_equal. replace (k * 2) with (length (repeat c_sp (2 * k)) + 0) by (rewrite repeat_length; lia).
  rewrite skipn_app, skipn_all2, Nat.add_0_r, Nat.sub_diag by lia. reflexivity.
Qed.

Lemma trim_end_last a b : b <> [] -> trim_end b = b -> trim_end (a ++ b) = a ++ b.
Proof. unfold trim_end. intros Hn H. rewrite trim_end_by_app; now rewrite H. Qed.
Lemma trim_end_nows s : forallb (fun c => negb (is_ws c)) s = true -> trim_end s = s.
Proof.
  unfold trim_end. induction s as [|c s IH]; auto. cbn [forallb trim_end_by]. intros H. bool_hyps.
  rewrite IH by auto. destruct s; auto. now rewrite H.
Qed.

(** ** Padded numbers *)

Lemma sp_repeat k s : hd_not is_sp s = true -> sp (repeat c_sp k ++ s) = Some (tt, s).
Proof. intros H. unfold sp, pmap, pwhile. now rewrite span_exact_spaces. Qed.

Lemma pad3_spec s : exists k, pad3 s = repeat c_sp k ++ s.
Proof.
  destruct s as [|a [|b [|c s]]]; [exists 3|exists 2|exists 1|exists 0]; reflexivity.
Qed.
Lemma sp_pad n rest : sp (pad3 (show_N n) ++ rest) = Some (tt, show_N n ++ rest).
Proof.
  destruct (pad3_spec (show_N n)) as (k & ->). rewrite <- app_assoc. apply sp_repeat.
  apply digit_head_not. intros; unfold is_sp; chars.
Qed.
Lemma g_anchor_pad a rest : hd_not is_digit rest = true ->
  g_anchor (L "#" ++ pad3 (show_N a) ++ rest) = Some (show_N a, rest).
Proof.
  intros Hr. unfold g_anchor. eapply pthen_some; [apply ptok_app|].
  eapply pthen_some; [apply sp_pad|]. now apply g_integer_show_N.
Qed.
Lemma g_urn_anchor_pad a rest : hd_not is_digit rest = true ->
  g_urn_anchor (L "@" ++ pad3 (show_N a) ++ rest) = Some (show_N a, rest).
Proof.
  intros Hr. unfold g_urn_anchor. eapply pthen_some; [apply ptok_app|].
  eapply pthen_some; [apply sp_pad|]. now apply g_integer_show_N.
Qed.
Lemma parse_u32_is n : is_u32 n = true -> parse_u32 (show_N n) = Some n.
Proof. unfold is_u32. intros H. apply parse_u32_show. unfold u32_max. lia. Qed.

(** ** URN lines *)

Lemma urn_ok_spec u : urn_ok u = true ->
  u <> [] /\ contains_char c_sp u = false /\ contains_char c_nl u = false /\ trim_end u = u.
Proof.
  unfold urn_ok. intros H. bool_hyps. apply streqb_eq in H0. repeat split; auto. now destruct u.
Qed.
Lemma no_sp_forallb u : contains_char c_sp u = false -> forallb (fun c => negb (c =? c_sp)%N) u = true.
Proof.
  induction u as [|c u IH]; auto. cbn [contains_char forallb]. intros H. bool_hyps. now rewrite H, IH.
Qed.
Lemma no_sp_hd u rest : u <> [] -> contains_char c_sp u = false -> hd_not is_sp (u ++ rest) = true.
Proof. destruct u as [|c u]; [congruence|]. cbn. intros _ H. bool_hyps. unfold is_sp. now rewrite H. Qed.

Lemma parse_urn_line a u : is_u32 a = true -> urn_ok u = true ->
  parse_urn_declaration (L "@" ++ pad3 (show_N a) ++ L ": " ++ u) = Ok (mk_urn a u).
Proof.
  intros Ha Hu. apply urn_ok_spec in Hu as (Hn & Hs & _ & _). unfold parse_urn_declaration.
  assert (E : g_urn_declaration (L "@" ++ pad3 (show_N a) ++ L ": " ++ u) = Some ((show_N a, u), [])).
  { unfold g_urn_declaration. eapply pbind_some; [apply g_urn_anchor_pad; reflexivity|].
    eapply pthen_some; [apply (ptok_app (L ":") (L " " ++ u))|].
    eapply pthen_some; [apply sp_one; rewrite <- (app_nil_r u); now apply no_sp_hd|].
    eapply pbind_some; [|reflexivity]. unfold g_urn. rewrite <- (app_nil_r u) at 1.
    apply pwhile1_app; auto using no_sp_forallb. }
  rewrite E, (parse_u32_is a Ha). reflexivity.
Qed.

(** ** Declaration lines *)

Lemma idchar_not_ws c : is_idchar c = true -> is_ws c = false.
Proof. unfold is_ws. intros H. chars. Qed.
Definition fn_char (c : N) : bool := is_idchar c || (c =? c_colon)%N || (c =? 33)%N.
Lemma identifier_fn n : is_identifier n = true -> forallb fn_char n = true.
Proof.
  destruct n as [|c n]; [discriminate|]. cbn [is_identifier forallb]. intros H. bool_hyps. apply andb_true_iff. split.
  - unfold fn_char. chars.
  - apply forallb_forall. intros x Hx. rewrite forallb_forall in H0. unfold fn_char. now rewrite H0.
Qed.
Lemma join_forallb f sep l : forallb f sep = true -> forallb (fun x => forallb f x) l = true ->
  forallb f (join sep l) = true.
Proof.
  intros Hs. induction l as [|x l IH]; auto. cbn [forallb]. intros H. bool_hyps. destruct l as [|y l]; auto.
  change (join sep (x :: y :: l)) with (x ++ sep ++ join sep (y :: l)). rewrite !forallb_app, H, Hs. cbn [andb]. auto.
Qed.
Lemma short_name_fn s : short_name_ok s = true -> forallb fn_char s = true.
Proof.
  destruct s as [|c s]; [discriminate|]. cbn [short_name_ok forallb]. intros H. bool_hyps. apply andb_true_iff. split.
  - unfold fn_char. chars.
  - apply forallb_forall. intros x Hx. rewrite forallb_forall in H0. specialize (H0 x Hx). unfold fn_char. chars.
Qed.
Lemma fn_name_chars n : fn_name_ok n = true -> forallb fn_char n = true.
Proof.
  unfold fn_name_ok. destruct (split_at_char c_colon n) as [[b s]|] eqn:E; [|apply identifier_fn].
  apply split_at_char_spec in E as [-> _]. intros H. rewrite forallb_app. cbn [forallb].
  change (fn_char c_colon) with true. destruct s as [|x s].
  - apply identifier_fn in H. now rewrite H.
  - bool_hyps. apply identifier_fn in H. rewrite H. cbn [andb].
    rewrite <- (split_on_join c_under (x :: s)). apply join_forallb; [reflexivity|].
    apply forallb_forall. intros y Hy. rewrite forallb_forall in H0. specialize (H0 y Hy). unfold arg_type_ok in H0.
    destruct (strip_prefix (L "u!") y) as [r|] eqn:Ey; [|now apply short_name_fn].
    apply strip_prefix_spec in Ey. subst y. rewrite forallb_app. apply short_name_fn in H0. now rewrite H0.
Qed.
Lemma fn_chars_nows n : forallb fn_char n = true -> forallb (fun c => negb (is_ws c)) n = true.
Proof.
  intros H. apply forallb_forall. intros c Hc. rewrite forallb_forall in H. specialize (H c Hc).
  unfold fn_char in H. unfold is_ws, c_colon in *. chars.
Qed.
Lemma decl_name_fn k n : decl_name_ok k n = true -> fn_name_ok n = true.
Proof.
  destruct k; auto; cbn [decl_name_ok]; intros H; unfold fn_name_ok;
    (assert (contains_char c_colon n = false) as E;
     [|apply split_at_char_none in E; now rewrite E]).
  all: destruct n as [|c n]; [discriminate|]; cbn [is_identifier] in H; bool_hyps;
    cbn [contains_char]; apply orb_false_iff; split; [unfold c_colon; chars|];
    eapply contains_char_class; [exact H0|]; reflexivity.
Qed.
Lemma fn_name_cons n : fn_name_ok n = true -> exists c r, n = c :: r /\ is_alpha c = true /\ hd_not (N.eqb 33) r = true.
Proof.
  unfold fn_name_ok. intros H.
  assert (G : forall b, is_identifier b = true -> exists c r, b = c :: r /\ is_alpha c = true /\ forallb is_idchar r = true).
  { intros [|c r]; cbn; intros; [discriminate|bool_hyps; eauto]. }
  destruct (split_at_char c_colon n) as [[b s]|] eqn:E.
  - apply split_at_char_spec in E as [-> _].
    assert (Hb : is_identifier b = true) by (destruct s; bool_hyps; auto).
    destruct (G b Hb) as (c & r & -> & Hc & Hr). exists c, (r ++ c_colon :: s). repeat split; auto.
    destruct r as [|x r]; auto. cbn [forallb] in Hr. bool_hyps. cbn [app hd_not]. apply negb_true_iff. chars.
  - destruct (G n H) as (c & r & -> & Hc & Hr). exists c, r. repeat split; auto.
    destruct r as [|x r]; auto. cbn [forallb] in Hr. bool_hyps. cbn [hd_not]. apply negb_true_iff. chars.
Qed.
Lemma not_u_bang n : fn_name_ok n = true -> strip_prefix (L "u!") n = None.
Proof.
  intros H. destruct (strip_prefix (L "u!") n) as [t|] eqn:E; auto. exfalso. apply strip_prefix_spec in E.
  destruct (fn_name_cons n H) as (c & r & En & _ & Hr). rewrite En in E. injection E as -> ->. discriminate Hr.
Qed.

Lemma parse_decl_line k a u n : is_u32 a = true -> is_u32 u = true -> decl_name_ok k n = true ->
  parse_declaration k (L "#" ++ pad3 (show_N a) ++ L " @" ++ pad3 (show_N u) ++ L ": " ++ n) = Ok (mk_decl k u a n).
Proof.
  intros Ha Hu Hn. pose proof (decl_name_fn _ _ Hn) as Hf. pose proof (not_u_bang n Hf) as Hb.
  destruct (fn_name_cons n Hf) as (c & r & En & Hc & _).
  unfold parse_declaration.
  assert (E : g_simple_extension (L "#" ++ pad3 (show_N a) ++ L " @" ++ pad3 (show_N u) ++ L ": " ++ n)
              = Some ((show_N a, show_N u, n), [])).
  { unfold g_simple_extension. eapply pbind_some; [apply g_anchor_pad; reflexivity|].
    eapply pthen_some; [apply sp_one; reflexivity|].
    change (64%N :: ?x) with (L "@" ++ x).
    eapply pbind_some; [apply g_urn_anchor_pad; reflexivity|].
    eapply pthen_some; [apply sp_none; reflexivity|].
    eapply pthen_some; [apply (ptok_app (L ":") (L " " ++ n))|].
    eapply pthen_some; [apply sp_one; rewrite En; cbn [hd_not]; unfold is_sp; apply negb_true_iff; chars|].
    eapply pbind_some; [|reflexivity]. unfold g_simple_extension_name.
    eapply pbind_some; [apply popt_none; unfold ptok; now rewrite Hb|].
    eapply pbind_some; [|reflexivity]. rewrite <- (app_nil_r n) at 1. now apply function_signature_app. }
  rewrite E, (parse_u32_is a Ha), (parse_u32_is u Hu). cbn [unwrap rbind].
  unfold starts_with. rewrite Hb, andb_false_r.
  assert (Hcol : negb (kind_eqb k KFunction) && contains_char c_colon n = false).
  { destruct k; auto; cbn [kind_eqb kind_rank N.eqb Pos.eqb negb andb]; cbn [decl_name_ok] in Hn;
      destruct n as [|c' n']; try discriminate; cbn [is_identifier] in Hn; bool_hyps;
      cbn [contains_char]; apply orb_false_iff; (split; [unfold c_colon; chars|]);
      (eapply contains_char_class; [eassumption|]); reflexivity. }
  rewrite Hcol. reflexivity.
Qed.

(** ** Line shapes *)

Lemma urn_line_indented a u : urn_ok u = true ->
  indented (urn_line (L "  ") (a, u)) = (1, L "@" ++ pad3 (show_N a) ++ L ": " ++ u).
Proof.
  intros Hu. apply urn_ok_spec in Hu as (Hn & _ & _ & Ht).
  apply (indented_at 1); [discriminate|reflexivity|].
  rewrite !app_assoc. now apply trim_end_last.
Qed.
Lemma decl_line_indented a k u n : decl_name_ok k n = true ->
  indented (decl_line (L "  ") ((a, k), (u, n))) = (1, L "#" ++ pad3 (show_N a) ++ L " @" ++ pad3 (show_N u) ++ L ": " ++ n).
Proof.
  intros Hn. apply decl_name_fn in Hn. destruct (fn_name_cons n Hn) as (c & r & En & _).
  apply (indented_at 1); [discriminate|reflexivity|].
  rewrite !app_assoc. apply trim_end_last; [congruence|]. now apply trim_end_nows, fn_chars_nows, fn_name_chars.
Qed.

(** ** Feeding the lines to the extension parser *)

Fixpoint xlines (x : ext_parser) (ls : list (list N)) : res ext_error ext_parser :=
  match ls with
  | [] => Ok x
  | l :: r => let? x' := ext_parse_line x (indented l) in xlines x' r
  end.
Lemma xlines_app x a b : xlines x (a ++ b) = rbind (xlines x a) (fun x' => xlines x' b).
Proof.
  revert x; induction a as [|l a IH]; intros x; [reflexivity|]. cbn [app xlines].
  destruct (ext_parse_line x (indented l)); cbn [rbind]; auto.
Qed.

Lemma xlines_urns us : forall e e', forallb urn_entry_ok us = true ->
  from_urns e (map (fun x => mk_urn (fst x) (snd x)) us) = (e', []) ->
  xlines (mk_xp XUrns e) (map (urn_line (L "  ")) us) = Ok (mk_xp XUrns e').
Proof.
  induction us as [|[a u] us IH]; intros e e' Hok H.
  - cbn in H. injection H as <-. reflexivity.
  - cbn [forallb] in Hok. bool_hyps. unfold urn_entry_ok in H0. cbn [fst snd] in H0. bool_hyps.
    cbn [map from_urns u_urn u_anchor fst snd] in H. cbn [map xlines]. rewrite urn_line_indented by auto.
    unfold ext_parse_line. cbn [xp_state]. rewrite parse_urn_line by auto. cbn [lift_message rbind u_urn u_anchor xp_exts].
    destruct (add_extension_urn e u a) as [e1 er]. destruct (from_urns e1 _) as [e2 ers] eqn:E.
    injection H as -> H. apply app_eq_nil in H as [H ->]. destruct er; [discriminate|].
    cbn [lift_insert rbind]. now apply IH.
Qed.

Definition kdecls (k : kind) (ds : list ((N * kind) * (N * list N))) : list ext_decl :=
  map (fun x : (N * kind) * (N * list N) => let '((a, _), (u, n)) := x in mk_decl k u a n) ds.
Lemma xlines_decls k ds : forall e e',
  forallb (fun x : (N * kind) * (N * list N) => let '((a, k'), (u, n)) := x in
             is_u32 a && is_u32 u && decl_name_ok k n && kind_eqb k' k) ds = true ->
  from_decls e (map Some (kdecls k ds)) = (e', []) ->
  xlines (mk_xp (XDecls k) e) (map (decl_line (L "  ")) ds) = Ok (mk_xp (XDecls k) e').
Proof.
  induction ds as [|[[a k'] [u n]] ds IH]; intros e e' Hok H.
  - cbn in H. injection H as <-. reflexivity.
  - cbn [forallb] in Hok. bool_hyps. apply kind_eqb_eq in H2. subst k'.
    cbn [kdecls map from_decls d_kind d_urn d_anchor d_name] in H. cbn [map xlines]. rewrite (decl_line_indented a k) by auto.
    unfold ext_parse_line. cbn [xp_state]. rewrite parse_decl_line by auto. cbn [lift_message rbind xp_exts d_kind d_urn d_anchor d_name].
    destruct (add_extension e k u a n) as [e1 er]. fold (kdecls k ds) in H.
    destruct (from_decls e1 _) as [e2 ers] eqn:E.
    injection H as -> H. apply app_eq_nil in H as [H ->]. destruct er; [discriminate|].
    cbn [lift_insert rbind]. now apply IH.
Qed.

Definition of_kind (k : kind) (x : (N * kind) * (N * list N)) : bool := kind_eqb (snd (fst x)) k.
Definition at_sub (s : ext_state) : bool := match s with XExtensions | XUrns | XDecls _ => true end.

Lemma header_line x k : ext_parse_line x (indented (hdr_kind k)) = Ok (mk_xp (XDecls k) (xp_exts x)).
Proof.
  destruct k; cbn [hdr_kind];
    (change (indented (L "Functions:")) with (0, L "Functions:") ||
     change (indented (L "Types:")) with (0, L "Types:") ||
     change (indented (L "Type Variations:")) with (0, L "Type Variations:"));
    destruct x as [[| |k] e]; reflexivity.
Qed.

Lemma xlines_kind (e0 : exts) k ds x e' :
  forallb (decl_entry_ok e0) ds = true -> ds = e_decls e0 ->
  from_decls (xp_exts x) (map Some (kdecls k (filter (of_kind k) ds))) = (e', []) ->
  exists s, xlines x (kind_lines (L "  ") e0 k) = Ok (mk_xp s e').
Proof.
  intros Hok Eds H. unfold kind_lines. rewrite <- Eds.
  change (fun x : N * kind * (N * list N) => kind_eqb (snd (fst x)) k) with (of_kind k). destruct (filter (of_kind k) ds) as [|d l] eqn:E.
  - cbn in H. injection H as <-. exists (xp_state x). now destruct x.
  - exists (XDecls k). cbn [xlines]. rewrite header_line. cbn [rbind].
    apply xlines_decls; auto. rewrite <- E. apply forallb_forall. intros [[a k'] [u n]] Hin.
    apply filter_In in Hin as [Hin Hk]. unfold of_kind in Hk. cbn in Hk.
    rewrite forallb_forall in Hok. specialize (Hok _ Hin). cbn in Hok. bool_hyps.
    assert (k' = k) by now apply kind_eqb_eq. subst. now rewrite H0, H3, H2, Hk.
Qed.

(** Declarations grouped by kind, as written. *)
Definition grouped (ds : list ((N * kind) * (N * list N))) : list ext_decl :=
  kdecls KFunction (filter (of_kind KFunction) ds) ++ kdecls KType (filter (of_kind KType) ds)
  ++ kdecls KTypeVariation (filter (of_kind KTypeVariation) ds).

Lemma from_decls_app e a b : from_decls e (a ++ b) =
  let (e1, er1) := from_decls e a in let (e2, er2) := from_decls e1 b in (e2, er1 ++ er2).
Proof.
  revert e; induction a as [|[d|] a IH]; intros e; cbn [app from_decls].
  - now destruct (from_decls e b).
  - destruct (add_extension e _ _ _ _) as [e1 er]. rewrite IH. destruct (from_decls e1 a) as [e2 er2].
    destruct (from_decls e2 b). now rewrite app_assoc.
  - rewrite IH. destruct (from_decls e a) as [e2 er2]. now destruct (from_decls e2 b).
Qed.

Lemma kdecls_in k ds d : In d (kdecls k (filter (of_kind k) ds)) <->
  d_kind d = k /\ In ((d_anchor d, k), (d_urn d, d_name d)) ds.
Proof.
  unfold kdecls. rewrite in_map_iff. split.
  - intros ([[a k'] [u n]] & <- & H). apply filter_In in H as [H Hk]. unfold of_kind in Hk. cbn in *.
    apply kind_eqb_eq in Hk. subst. auto.
  - intros [E H]. exists ((d_anchor d, k), (d_urn d, d_name d)). split; [destruct d; cbn in *; congruence|].
    apply filter_In. split; auto. unfold of_kind. cbn. apply kind_eqb_refl.
Qed.
Lemma grouped_in ds d : In d (grouped ds) <-> In ((d_anchor d, d_kind d), (d_urn d, d_name d)) ds.
Proof.
  unfold grouped. rewrite !in_app_iff, !kdecls_in. destruct (d_kind d); intuition congruence.
Qed.
Lemma kdecls_nodup k ds : NoDup (map fst ds) ->
  NoDup (map (fun d => (d_anchor d, d_kind d)) (kdecls k (filter (of_kind k) ds))).
Proof.
  induction ds as [|[[a k'] [u n]] ds IH]; cbn [map filter]; [constructor|]. intros H. inversion H; subst.
  unfold of_kind at 1. cbn [fst snd]. destruct (kind_eqb k' k) eqn:E; auto. apply kind_eqb_eq in E. subst.
  cbn [kdecls map]. constructor; [|now apply IH].
  intros Hin. apply in_map_iff in Hin as (d & [= E1 E2] & Hd). fold (kdecls k (filter (of_kind k) ds)) in Hd.
  apply kdecls_in in Hd as [_ Hd]. apply H2. apply in_map_iff. eexists. split; [|exact Hd]. cbn [fst]. congruence.
Qed.
Lemma NoDup_app_disj {X} (a b : list X) : NoDup a -> NoDup b -> (forall x, In x a -> ~ In x b) -> NoDup (a ++ b).
Proof.
  induction 1 as [|x a Hx Ha IH]; intros Hb Hd; auto. cbn. constructor.
  - rewrite in_app_iff. intros [H|H]; auto. apply (Hd x); auto. now left.
  - apply IH; auto. intros y Hy. apply Hd. now right.
Qed.
Lemma grouped_nodup ds : NoDup (map fst ds) -> NoDup (map (fun d => (d_anchor d, d_kind d)) (grouped ds)).
Proof.
  intros H. unfold grouped. rewrite !map_app.
  assert (G : forall k x, In x (map (fun d => (d_anchor d, d_kind d)) (kdecls k (filter (of_kind k) ds))) -> snd x = k).
  { intros k x Hx. apply in_map_iff in Hx as (d & <- & Hd). now apply kdecls_in in Hd as [Hd _]. }
  apply NoDup_app_disj; [now apply kdecls_nodup| |].
  - apply NoDup_app_disj; [now apply kdecls_nodup|now apply kdecls_nodup|].
    intros x H1 H2. apply G in H1, H2. congruence.
  - intros x H1 H2. apply in_app_iff in H2 as [H2|H2]; apply G in H1, H2; congruence.
Qed.

(** Loading a writable table's entries gives the table. *)
Lemma load_listed e ls : wf_exts e -> exts_writable e = true ->
  (forall d, In d ls <-> In ((d_anchor d, d_kind d), (d_urn d, d_name d)) (e_decls e)) ->
  NoDup (map (fun d => (d_anchor d, d_kind d)) ls) ->
  from_extensions (to_extension_urns e) (map Some ls) = (e, []).
Proof.
  intros W Hw listed_in listed_nodup. unfold exts_writable in Hw. bool_hyps.
  assert (Hs : forall d, In d ls -> stored_name (d_kind d) (d_name d) = Some (d_name d) /\
              urn_get e (d_urn d) <> None).
  { intros d Hd. apply listed_in in Hd. rewrite forallb_forall in H0. specialize (H0 _ Hd). cbn in H0. bool_hyps.
    split.
    - apply decl_name_fn, not_u_bang in H2. unfold stored_name. rewrite H2. now destruct (d_kind d).
    - intros E. now rewrite E in H1. }
  assert (Hf : forall a, first_urn a (to_extension_urns e) = urn_get e a).
  { intros a. unfold to_extension_urns, urn_get. destruct W as [W _].
    destruct (oget N.compare a (e_urns e)) as [v|] eqn:E.
    - apply oget_in in E; auto using ord_N. pose proof (osorted_nodup _ ord_N _ W) as Hnd.
      clear - E Hnd. induction (e_urns e) as [|[a' u'] l IH]; [contradiction|]. cbn [map first_urn u_anchor u_urn fst snd].
      inversion Hnd; subst. destruct E as [[= -> ->]|E].
      + now rewrite N.eqb_refl.
      + destruct (N.eqb_spec a' a); auto. subst. exfalso. apply H1. apply in_map_iff. now exists (a, v).
    - apply oget_none in E; auto using ord_N. apply first_urn_none. rewrite map_map. cbn. exact E. }
  assert (Hc : clean_decls (to_extension_urns e) (map Some ls)).
  { split.
    - unfold to_extension_urns. rewrite map_map. cbn. apply (osorted_nodup _ ord_N). apply W.
    - exists ls. split; auto. split.
      + intros d Hd. destruct (Hs d Hd) as [S1 S2]. split; [congruence|].
        rewrite <- Hf in S2. destruct (in_dec N.eq_dec (d_urn d) (map u_anchor (to_extension_urns e))); auto.
        now apply first_urn_none in n.
      + exact listed_nodup. }
  apply from_extensions_clean in Hc.
  destruct (from_extensions _ _) as [e' er] eqn:E. cbn in Hc. subst er. f_equal.
  pose proof (wf_from_extensions (to_extension_urns e) (map Some ls)) as W'. rewrite E in W'. cbn in W'.
  destruct W as [W1 W2], W' as [W1' W2']. destruct e as [us ds], e' as [us' ds'].
  f_equal.
  - symmetry. apply (oget_ext N.compare ord_N); auto. intros a.
    pose proof (from_extensions_urn (to_extension_urns (mk_exts us ds)) (map Some ls) a) as G.
    cbn [e_decls] in E. rewrite E in G. rewrite Hf in G. symmetry. exact G.
  - symmetry. apply (oget_ext cmp_key ord_key); auto. intros [a k].
    pose proof (from_extensions_get (to_extension_urns (mk_exts us ds)) (map Some ls) k a) as G.
    cbn [e_decls] in E. rewrite E in G. unfold decl_get in G. cbn [fst e_decls] in G |- *. rewrite G. clear G.
    cbn [e_decls] in Hs. cbn [e_decls] in W2.
    destruct (oget cmp_key (a, k) ds) as [[u n]|] eqn:Eg.
    + apply oget_in in Eg; auto using ord_key.
      assert (Hin : In (mk_decl k u a n) ls) by now apply listed_in.
      assert (Hnd : NoDup (map (fun d => (d_anchor d, d_kind d)) ls)).
      { exact listed_nodup. }
      revert Hin Hnd Hs. clear. rename ls into l. induction l as [|d l IH]; [contradiction|].
      intros Hin Hnd Hs. cbn [map first_decl]. inversion Hnd; subst. destruct Hin as [->|Hin].
      * cbn [d_kind d_anchor d_urn d_name]. rewrite kind_eqb_refl, N.eqb_refl. cbn [andb].
        destruct (Hs _ (or_introl eq_refl)) as [S _]. cbn in S. now rewrite S.
      * destruct (kind_eqb (d_kind d) k && (d_anchor d =? a)%N) eqn:Ek.
        -- exfalso. bool_hyps. apply kind_eqb_eq in H. apply N.eqb_eq in H0. apply H1. apply in_map_iff.
           exists (mk_decl k u a n). split; auto. cbn. congruence.
        -- apply IH; auto. intros d' Hd'. apply Hs. now right.
    + apply oget_none in Eg; auto using ord_key.
      assert (Hni : forall d, In d ls -> ~ (d_kind d = k /\ d_anchor d = a)).
      { intros d Hd [<- <-]. apply Eg. apply listed_in in Hd. apply in_map_iff. eexists. split; [|exact Hd]. reflexivity. }
      revert Hni. clear. rename ls into l. induction l as [|d l IH]; auto. intros Hni.
      cbn [map first_decl]. destruct (kind_eqb (d_kind d) k && (d_anchor d =? a)%N) eqn:Ek.
      * exfalso. bool_hyps. apply kind_eqb_eq in H. apply N.eqb_eq in H0. apply (Hni d); auto. now left.
      * apply IH. intros d' Hd'. apply Hni. now right.
Qed.
Lemma load_writable e : wf_exts e -> exts_writable e = true ->
  from_extensions (to_extension_urns e) (map Some (grouped (e_decls e))) = (e, []).
Proof.
  intros W Hw. apply load_listed; auto; [apply grouped_in|]. apply grouped_nodup, (osorted_nodup _ ord_key), W.
Qed.
(** The same in the order in which the entries are exported. *)
Lemma load_exported e : wf_exts e -> exts_writable e = true ->
  from_extensions (to_extension_urns e) (to_extension_declarations e) = (e, []).
Proof.
  intros W Hw.
  set (f := fun x : (N * kind) * (N * list N) => let '((a, k), (u, n)) := x in mk_decl k u a n).
  assert (E : to_extension_declarations e = map Some (map f (e_decls e))).
  { unfold to_extension_declarations. rewrite map_map. apply map_ext. now intros [[a k] [u n]]. }
  rewrite E. apply load_listed; auto.
  - intros d. rewrite in_map_iff. split.
    + intros ([[a k] [u n]] & <- & H). exact H.
    + intros H. eexists. split; [|exact H]. now destruct d.
  - rewrite map_map. rewrite (map_ext _ fst); [apply (osorted_nodup _ ord_key), W|]. now intros [[a k] [u n]].
Qed.

(** The section's lines after its header. *)
Definition body_lines (e : exts) : list (list N) :=
  (match e_urns e with [] => [] | l => hdr_urns :: map (urn_line (L "  ")) l end)
  ++ kind_lines (L "  ") e KFunction ++ kind_lines (L "  ") e KType ++ kind_lines (L "  ") e KTypeVariation.

Lemma body_round_trip e : wf_exts e -> exts_writable e = true ->
  exists s, xlines xp_default (body_lines e) = Ok (mk_xp s e).
Proof.
  intros W Hw. pose proof (load_writable e W Hw) as Hl. unfold exts_writable in Hw. bool_hyps.
  unfold from_extensions, to_extension_urns in Hl.
  destruct (from_urns exts_empty _) as [e1 er1] eqn:E1.
  unfold grouped in Hl. rewrite !map_app, from_decls_app in Hl.
  destruct (from_decls e1 _) as [e2 er2] eqn:E2. rewrite from_decls_app in Hl.
  destruct (from_decls e2 _) as [e3 er3] eqn:E3.
  destruct (from_decls e3 _) as [e4 er4] eqn:E4. injection Hl as -> Hl.
  apply app_eq_nil in Hl as [-> Hl]. apply app_eq_nil in Hl as [-> Hl]. apply app_eq_nil in Hl as [-> ->].
  unfold body_lines. rewrite xlines_app.
  assert (S1 : exists s, xlines xp_default (match e_urns e with [] => [] | l => hdr_urns :: map (urn_line (L "  ")) l end) = Ok (mk_xp s e1)).
  { destruct (e_urns e) as [|u us] eqn:Eu.
    - cbn in E1. injection E1 as <-. exists XExtensions. reflexivity.
    - exists XUrns. cbn [xlines]. change (ext_parse_line xp_default (indented hdr_urns)) with (Ok (E := ext_error) (mk_xp XUrns exts_empty)).
      cbn [rbind]. rewrite <- Eu in *. apply xlines_urns; auto. }
  destruct S1 as (s1 & ->). cbn [rbind]. rewrite xlines_app.
  destruct (xlines_kind e KFunction (e_decls e) (mk_xp s1 e1) e2 H0 eq_refl E2) as (s2 & ->). cbn [rbind]. rewrite xlines_app.
  destruct (xlines_kind e KType (e_decls e) (mk_xp s2 e2) e3 H0 eq_refl E3) as (s3 & ->). cbn [rbind].
  destruct (xlines_kind e KTypeVariation (e_decls e) (mk_xp s3 e3) e H0 eq_refl E4) as (s4 & ->). eauto.
Qed.
