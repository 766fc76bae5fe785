(** Reading back what precedes the plan section. *)
From Coq Require Import String List NArith ZArith Bool Lia PeanoNat ZifyBool ZifyN.
From Verif Require Import Base BaseFacts OMap Peg PegFacts Names NamesFacts SimpleExt SpecExt Out Anchors
  AnchorsFacts SimpleExtFacts FromExtFacts ExtLines SpecExtLines ExtLinesFacts Lines LinesFacts Tree Structural
  SpecLines StructuralFacts LineView ReadFacts Version.
Import ListNotations.

Section Parser.
  Variables R A : Type.
  Variable parse_root : list N -> pres (R + A).
  Variable parse_node : list N -> pres (R + A).
  Local Notation step := (StructuralFacts.step R A parse_root parse_node).
  Local Notation prest := (StructuralFacts.prest R A parse_root parse_node).
  Local Notation in_plan := (Structural.in_plan R A).
  Local Notation mk_parser := (Structural.mk_parser R A).

  Fixpoint psteps (p : parser R A) (n : N) (ls : list (list N)) : res perror (parser R A) :=
    match ls with
    | [] => Ok p
    | l :: r => rbind (step p n l) (fun p' => psteps p' (n + 1) r)
    end.
  Lemma psteps_app p n a b : psteps p n (a ++ b) = rbind (psteps p n a) (fun p' => psteps p' (n + N.of_nat (length a)) b).
  Proof.
    revert p n; induction a as [|l a IH]; intros p n; cbn [app psteps length rbind]; [now rewrite N.add_0_r|].
    destruct (step p n l); cbn [rbind]; auto. rewrite IH. destruct (psteps _ _ _); cbn [rbind]; auto. f_equal. lia.
  Qed.
  Lemma step_in_plan p n l p' : step p n l = Ok p' -> in_plan p = true -> in_plan p' = true.
  Proof.
    unfold StructuralFacts.step. destruct (blank l); [congruence|]. intros H Hp.
    destruct (parse_line_state _ _ _ _ _ _ _ _ H) as [(_ & _ & S3)|(_ & S2 & _)].
    - unfold Structural.in_plan in *. destruct (ps_state _ _ p); try discriminate. destruct (ps_state _ _ p'); cbn in S3; lia.
    - unfold Structural.in_plan in *. now rewrite S2.
  Qed.
  Lemma psteps_in_plan ls : forall p n p', psteps p n ls = Ok p' -> in_plan p = true -> in_plan p' = true.
  Proof.
    induction ls as [|l ls IH]; intros p n p' H Hp; [cbn in H; congruence|]. cbn [psteps] in H.
    apply rbind_ok in H as (q & H1 & H2). eauto using step_in_plan.
  Qed.

  (** Outside the plan section every line is a chunk. *)
  Lemma prest_psteps ls1 : forall ls2 p n p' s, text_lines s = ls1 ++ ls2 -> psteps p n ls1 = Ok p' -> in_plan p = false ->
    in_plan p' = false \/ (exists l r, ls1 = r ++ [l] /\ exists q, psteps p n r = Ok q /\ in_plan q = false) ->
    exists rest, text_lines rest = ls2 /\ prest p n s = prest p' (n + N.of_nat (length ls1)) rest.
  Proof.
    induction ls1 as [|l ls1 IH]; intros ls2 p n p' s E H Hp Hend.
    - cbn in H. injection H as <-. exists s. rewrite N.add_0_r. auto.
    - cbn [app] in E. destruct (prest_lines R A parse_root parse_node p n s l _ E) as (rest & Hrest & _ & ->).
      rewrite Hp in *. cbn [lines_chunk fst snd length] in *. cbn [unl map concat]. rewrite app_nil_r, step_nl.
      cbn [psteps] in H. apply rbind_ok in H as (q & H1 & H2). rewrite H1. cbn [rbind].
      destruct ls1 as [|l2 ls1].
      + cbn in H2. injection H2 as <-. exists rest. auto.
      + assert (Hq : in_plan q = false).
        { destruct (in_plan q) eqn:Eq; auto. exfalso. destruct Hend as [Hend|(l' & r & Er & q' & Hq1 & Hq2)].
          - now rewrite (psteps_in_plan _ _ _ _ H2 Eq) in Hend.
          - destruct r as [|l0 r]; [discriminate|]. injection Er as <- Er. cbn [psteps] in Hq1. rewrite H1 in Hq1. cbn [rbind] in Hq1.
            now rewrite (psteps_in_plan _ _ _ _ Hq1 Eq) in Hq2. }
        destruct (IH ls2 q (n + 1)%N p' rest) as (rest' & Hr & Hg); auto.
        { destruct Hend as [Hend|(l' & r & Er & q' & Hq1 & Hq2)]; auto. right.
          destruct r as [|l0 r]; [discriminate|]. injection Er as <- Er. exists l', r. split; auto.
          cbn [psteps] in Hq1. rewrite H1 in Hq1. eauto. }
        exists rest'. split; auto. change (n + N.of_nat 1)%N with (n + 1)%N. rewrite Hg. f_equal. cbn [length]. lia.
  Qed.

  (** ** Extension lines *)
  Definition ext_line_ok (l : list N) : Prop :=
    blank l = false /\ match indented l with (0, s) => starts_with (L "===") s = false | _ => True end.
  Lemma step_ext p n l x : ps_state _ _ p = SExtensions -> ext_line_ok l ->
    ext_parse_line (ps_ext _ _ p) (indented l) = Ok x ->
    step p n l = Ok (mk_parser SExtensions (ps_version _ _ p) x (ps_tree _ _ p)).
  Proof.
    intros Hs [Hb Hi] Hx. unfold StructuralFacts.step. rewrite Hb. unfold Structural.parse_line.
    destruct (indented l) as [i s]. assert (E : match i with 0 => starts_with (L "===") s | _ => false end = false) by now destruct i.
    rewrite E, Hs, Hx. reflexivity.
  Qed.
  Lemma psteps_ext ls : forall p n x, ps_state _ _ p = SExtensions -> Forall ext_line_ok ls ->
    xlines (ps_ext _ _ p) ls = Ok x ->
    psteps p n ls = Ok (mk_parser SExtensions (ps_version _ _ p) x (ps_tree _ _ p)).
  Proof.
    induction ls as [|l ls IH]; intros p n x Hs Hok H.
    - cbn in H. injection H as <-. destruct p; cbn in *; subst; reflexivity.
    - inversion Hok; subst. cbn [xlines] in H. apply rbind_ok in H as (y & H1 & H4). cbn [psteps].
      rewrite (step_ext p n l y) by auto. cbn [rbind]. rewrite (IH _ _ x); auto.
  Qed.
End Parser.

Lemma blank_cons c s : is_ws c = false -> blank (c :: s) = false.
Proof. intros H. unfold blank. cbn [forallb]. now rewrite H. Qed.
Lemma indented_not_blank s i t : indented s = (i, t) -> t <> [] -> blank s = false.
Proof.
  intros H Ht. destruct (blank s) eqn:B; auto. exfalso. apply Ht.
  unfold indented in H. unfold blank in B. apply trim_end_by_all in B. unfold trim_end in H. rewrite B in H. now injection H as _ <-.
Qed.
Lemma ext_line_one l t : indented l = (1, t) -> t <> [] -> ext_line_ok l.
Proof. intros H Ht. split; [eapply indented_not_blank; eauto|]. now rewrite H. Qed.

Lemma digits_free n : contains_char c_nl (show_N n) = false.
Proof. eapply contains_char_class; [apply show_N_digits|reflexivity]. Qed.
Lemma urn_line_ok x : urn_entry_ok x = true -> ext_line_ok (urn_line (L "  ") x) /\ nl_free (urn_line (L "  ") x).
Proof.
  destruct x as [a u]. unfold urn_entry_ok. cbn [fst snd]. intros H. bool_hyps. split.
  - eapply ext_line_one; [now apply urn_line_indented|]. discriminate.
  - unfold nl_free, urn_line. cbn [fst snd]. apply urn_ok_spec in H0 as (_ & _ & Hn & _).
    destruct (pad3_spec (show_N a)) as (k & ->). rewrite !contains_char_app, Hn.
    assert (E : contains_char c_nl (repeat c_sp k) = false) by (induction k; auto).
    rewrite E, digits_free. reflexivity.
Qed.
Lemma decl_line_ok e x : decl_entry_ok e x = true -> ext_line_ok (decl_line (L "  ") x) /\ nl_free (decl_line (L "  ") x).
Proof.
  destruct x as [[a k] [u n]]. unfold decl_entry_ok. intros H. bool_hyps. split.
  - eapply ext_line_one; [now apply decl_line_indented|]. discriminate.
  - unfold nl_free, decl_line. apply decl_name_fn, fn_name_chars in H1.
    destruct (pad3_spec (show_N a)) as (i & ->). destruct (pad3_spec (show_N u)) as (j & ->). rewrite !contains_char_app.
    assert (E : forall k, contains_char c_nl (repeat c_sp k) = false) by (intros j0; induction j0; auto).
    rewrite !E, !digits_free.
    rewrite (contains_char_class fn_char c_nl n H1 eq_refl). reflexivity.
Qed.
Lemma body_lines_ok e : exts_writable e = true -> Forall (fun l => ext_line_ok l /\ nl_free l) (body_lines e).
Proof.
  unfold exts_writable. intros H. bool_hyps. rewrite forallb_forall in H, H0. unfold body_lines.
  assert (K : forall k, Forall (fun l => ext_line_ok l /\ nl_free l) (kind_lines (L "  ") e k)).
  { intros k. unfold kind_lines. destruct (filter _ (e_decls e)) as [|d l] eqn:E; [constructor|]. 
    constructor; [destruct k; (split; [split; reflexivity|reflexivity])|]. apply Forall_forall. intros x Hx. apply in_map_iff in Hx as (y & <- & Hy).
    rewrite <- E in Hy. apply filter_In in Hy as [Hy _]. eapply decl_line_ok; eauto. }
  apply Forall_app. split; [|repeat (apply Forall_app; split); apply K].
  destruct (e_urns e) as [|u us] eqn:E; [constructor|]. constructor; [split; [split; reflexivity|reflexivity]|].
  apply Forall_forall. intros x Hx. apply in_map_iff in Hx as (y & <- & Hy). apply urn_line_ok; auto.
Qed.

(** ** Version lines *)

Lemma split_dots_digits s r : forallb is_digit s = true -> split_dots (s ++ 46%N :: r) = s :: split_dots r.
Proof.
  induction s as [|c s IH]; cbn [forallb app split_dots]; intros H; [reflexivity|]. bool_hyps.
  destruct (N.eqb_spec c 46); [subst; discriminate|]. now rewrite IH.
Qed.
Lemma split_dots_last s : forallb is_digit s = true -> split_dots s = [s].
Proof.
  induction s as [|c s IH]; cbn [forallb split_dots]; intros H; [reflexivity|]. bool_hyps.
  destruct (N.eqb_spec c 46); [subst; discriminate|]. now rewrite IH.
Qed.
Lemma next_number_show n a r : is_u32 a = true -> next_number n (show_N a :: r) = Ok (a, r).
Proof.
  intros H. unfold next_number. rewrite (parse_u32_is a H). destruct (show_N_head a) as (c & t & -> & _). reflexivity.
Qed.
Lemma digit_nows c : is_digit c = true -> is_ws c = false.
Proof. unfold is_ws. intros H. chars. Qed.

Definition dotted (a b c : N) : list N := show_N a ++ L "." ++ show_N b ++ L "." ++ show_N c.
Lemma dotted_nows a b c : forallb (fun x => negb (is_ws x)) (dotted a b c) = true.
Proof.
  assert (G : forall n, forallb (fun x => negb (is_ws x)) (show_N n) = true).
  { intros n. apply forallb_forall. intros x Hx. pose proof (show_N_digits n) as D. rewrite forallb_forall in D.
    now rewrite digit_nows by auto. }
  unfold dotted. rewrite !forallb_app, !G. reflexivity.
Qed.
Lemma dotted_cons a b c : exists x r, dotted a b c = x :: r /\ is_ws x = false.
Proof. unfold dotted. destruct (show_N_head a) as (x & t & -> & H). eexists _, _. split; [reflexivity|]. now apply digit_nows. Qed.
Lemma trim_start_nows c s : is_ws c = false -> trim_start (c :: s) = c :: s.
Proof. intros H. unfold trim_start. cbn [span]. now rewrite H. Qed.
Lemma trim_start_ws c s : is_ws c = true -> trim_start (c :: s) = trim_start s.
Proof. intros H. unfold trim_start. cbn [span]. rewrite H. now destruct (span is_ws s). Qed.
Lemma trim_end_nows_cons c s : is_ws c = false -> trim_end (c :: s) = c :: trim_end s.
Proof. intros H. unfold trim_end. cbn [trim_end_by]. rewrite H. now destruct (trim_end_by is_ws s). Qed.
Lemma trim_end_ws_cons c s : is_ws c = true -> trim_end (c :: s) = match trim_end s with [] => [] | t => c :: t end.
Proof. intros H. unfold trim_end. cbn [trim_end_by]. rewrite H. now destruct (trim_end_by is_ws s). Qed.
Lemma trim_comm s : trim_start (trim_end s) = trim_end (trim_start s).
Proof.
  induction s as [|c s IH]; [reflexivity|]. destruct (is_ws c) eqn:E.
  - rewrite trim_start_ws, trim_end_ws_cons by auto. rewrite <- IH. destruct (trim_end s); auto. now rewrite trim_start_ws.
  - now rewrite trim_start_nows, trim_end_nows_cons, trim_start_nows by auto.
Qed.
Lemma trim_start_idem s : trim_start (trim_start s) = trim_start s.
Proof.
  induction s as [|c s IH]; [reflexivity|]. destruct (is_ws c) eqn:E.
  - now rewrite trim_start_ws.
  - now rewrite !trim_start_nows by auto.
Qed.
Lemma trim_trim_end s : trim (trim_end s) = trim s.
Proof. unfold trim. rewrite trim_comm. unfold trim_end. now rewrite trim_end_idem. Qed.
Lemma trim_ws_cons c s : is_ws c = true -> trim (c :: s) = trim s.
Proof. intros H. unfold trim. now rewrite trim_start_ws. Qed.
Lemma trim_trim s : trim (trim s) = trim s.
Proof. unfold trim at 2. rewrite trim_trim_end. unfold trim. now rewrite trim_start_idem. Qed.

Lemma parse_dotted n a b c : is_u32 a = true -> is_u32 b = true -> is_u32 c = true ->
  parse_version_header n (L " " ++ dotted a b c) = Ok (mk_version a b c [] []).
Proof.
  intros Ha Hb Hc. unfold parse_version_header.
  assert (E : trim (L " " ++ dotted a b c) = dotted a b c).
  { change (L " " ++ dotted a b c) with (c_sp :: dotted a b c). rewrite trim_ws_cons by reflexivity. unfold trim.
    destruct (dotted_cons a b c) as (x & r & E & H). rewrite E, trim_start_nows by auto. rewrite <- E.
    apply trim_end_nows, dotted_nows. }
  rewrite E. unfold dotted.
  change (split_dots _) with (split_dots (show_N a ++ 46%N :: show_N b ++ 46%N :: show_N c)).
  rewrite !split_dots_digits by apply show_N_digits. rewrite split_dots_last by apply show_N_digits.
  rewrite next_number_show by auto. cbn [rbind fst snd]. rewrite next_number_show by auto. cbn [rbind fst snd].
  rewrite next_number_show by auto. reflexivity.
Qed.

Lemma header_parse n v : is_u32 (v_major v) = true -> is_u32 (v_minor v) = true -> is_u32 (v_patch v) = true ->
  forall R A root node p, ps_state R A p = SInitial ->
  step R A root node p n (version_header v) =
  Ok (mk_parser R A SVersion (Some (mk_version (v_major v) (v_minor v) (v_patch v) [] [])) (ps_ext _ _ p) (ps_tree _ _ p)).
Proof.
  intros Ha Hb Hc R A root node p Hp.
  change (version_header v) with (hdr_version ++ L " " ++ dotted (v_major v) (v_minor v) (v_patch v)).
  set (d := dotted _ _ _). assert (Hd : trim_end d = d) by apply trim_end_nows, dotted_nows.
  assert (Hi : indented (hdr_version ++ L " " ++ d) = (0, hdr_version ++ L " " ++ d)).
  { apply (indented_at 0); [discriminate|reflexivity|]. rewrite app_assoc. apply trim_end_last; auto.
    unfold d. destruct (dotted_cons (v_major v) (v_minor v) (v_patch v)) as (x & r & -> & _). discriminate. }
  unfold step. rewrite (indented_not_blank _ _ _ Hi) by discriminate. unfold parse_line. rewrite Hi.
  change (starts_with (L "===") (hdr_version ++ L " " ++ d)) with true. cbv beta iota.
  unfold parse_section_header. change (streqb (hdr_version ++ L " " ++ d) hdr_extensions) with false.
  change (streqb (hdr_version ++ L " " ++ d) hdr_plan) with false. cbv beta iota. rewrite strip_prefix_app.
  change (match L " " ++ d with [] => true | c :: _ => (c =? c_sp)%N end) with true. cbv beta iota.
  unfold d. rewrite parse_dotted by auto. cbn [rmap rbind fst snd]. rewrite Hp. reflexivity.
Qed.

Lemma detail_line k v : k <> [] -> forallb (fun c => negb (is_ws c)) k = true ->
  exists w, indented (L "  " ++ k ++ L ": " ++ trim v) = (1, k ++ c_colon :: w) /\ trim w = trim v.
Proof.
  intros Hn Hk. exists (trim_end (c_sp :: trim v)).
  assert (E : trim_end (k ++ L ": " ++ trim v) = k ++ c_colon :: trim_end (c_sp :: trim v)).
  { unfold trim_end at 1. change (L ": " ++ trim v) with (c_colon :: c_sp :: trim v).
    assert (G : trim_end (c_colon :: c_sp :: trim v) = c_colon :: trim_end (c_sp :: trim v)) by now rewrite trim_end_nows_cons.
    unfold trim_end at 1 in G. rewrite trim_end_by_app; rewrite G; [reflexivity|discriminate]. }
  split.
  - rewrite <- indented_trim. unfold trim_end at 1. rewrite trim_end_by_app; fold trim_end; rewrite E.
    + apply (indented_at 1).
      * destruct k; discriminate.
      * destruct k as [|c k]; [congruence|]. cbn [forallb] in Hk. bool_hyps. cbn [app hd_not]. unfold is_sp.
        destruct (N.eqb_spec c c_sp); auto. subst. discriminate.
      * rewrite <- E. unfold trim_end. apply trim_end_idem.
    + destruct k; discriminate.
  - now rewrite trim_trim_end, trim_ws_cons, trim_trim by reflexivity.
Qed.

Lemma detail_step R A root node p n v k x : ps_state R A p = SVersion -> ps_version _ _ p = Some v -> k <> [] ->
  forallb (fun c => negb (is_ws c)) k = true -> contains_char c_colon k = false -> contains_char 61 k = false ->
  step R A root node p n (L "  " ++ k ++ L ": " ++ trim x) =
  rbind (if streqb k (L "producer") then Ok (mk_version (v_major v) (v_minor v) (v_patch v) (trim x) (v_git v))
         else if streqb k (L "git_hash") then Ok (mk_version (v_major v) (v_minor v) (v_patch v) (v_producer v) (trim x))
         else Err (EValidation n "unknown version field"))
    (fun v => Ok (mk_parser R A SVersion (Some v) (ps_ext _ _ p) (ps_tree _ _ p))).
Proof.
  intros Hs Hv Hn Hk Hc He. destruct (detail_line k x Hn Hk) as (w & Hi & Hw).
  unfold step. rewrite (indented_not_blank _ _ _ Hi) by (destruct k; discriminate). unfold parse_line. rewrite Hi, Hs.
  unfold parse_version_detail. rewrite split_at_char_app by auto. rewrite Hv, Hw.
  assert (Ek : trim k = k).
  { unfold trim. destruct k as [|c k]; [reflexivity|]. rewrite trim_start_nows; [now apply trim_end_nows|].
    cbn [forallb] in Hk. bool_hyps. auto. }
  rewrite Ek. destruct (streqb k (L "producer")); [reflexivity|]. destruct (streqb k (L "git_hash")); reflexivity.
Qed.

(** A version the section can carry, and what is read back. *)
Definition version_writable (v : version) : bool :=
  is_u32 (v_major v) && is_u32 (v_minor v) && is_u32 (v_patch v)
  && negb (contains_char c_nl (trim (v_producer v))) && negb (contains_char c_nl (trim (v_git v))).
Definition version_trimmed (v : version) : version :=
  mk_version (v_major v) (v_minor v) (v_patch v) (trim (v_producer v)) (trim (v_git v)).
Definition version_read (v : option version) : option version :=
  match v with
  | Some v => if version_is_default v then None else Some (version_trimmed v)
  | None => None
  end.

Lemma version_steps v R A root node p n : match v with Some v => version_writable v | None => true end = true ->
  ps_state R A p = SInitial -> ps_version _ _ p = None ->
  exists st, psteps R A root node p n (version_lines (L "  ") v) =
    Ok (mk_parser R A st (version_read v) (ps_ext _ _ p) (ps_tree _ _ p)) /\ section_rank st < 2.
Proof.
  intros Hw Hp Hv. destruct v as [v|]; [|exists SInitial; split; [destruct p; cbn in *; subst; reflexivity|cbn; lia]].
  cbn [version_lines version_read].
  destruct (version_is_default v); [exists SInitial; split; [destruct p; cbn in *; subst; reflexivity|cbn; lia]|].
  exists SVersion. split; [|cbn; lia]. unfold version_writable in Hw. bool_hyps. cbn [psteps]. rewrite header_parse by auto. cbn [rbind].
  unfold version_trimmed. rewrite psteps_app.
  assert (G : forall p n v k x, ps_state R A p = SVersion -> ps_version R A p = Some v -> k = L "producer" \/ k = L "git_hash" ->
    psteps R A root node p n (version_detail (L "  ") k x) =
    Ok (mk_parser R A SVersion (match x with [] => Some v | _ => Some (mk_version (v_major v) (v_minor v) (v_patch v)
       (if streqb k (L "producer") then trim x else v_producer v)
       (if streqb k (L "producer") then v_git v else trim x)) end) (ps_ext _ _ p) (ps_tree _ _ p))).
  { intros q m v' k x Hq Hv' Hk. unfold version_detail. destruct x as [|c x]; [cbn; destruct q; cbn in *; subst; reflexivity|].
    cbn [psteps]. rewrite (detail_step R A root node q m v' k (c :: x)); auto; try (destruct Hk; subst k; (discriminate || reflexivity)). }
  erewrite (G _ _ _ (L "producer")) by (auto; reflexivity). cbn [rbind].
  destruct (v_producer v) as [|c pr]; erewrite (G _ _ _ (L "git_hash")) by (auto; reflexivity);
    destruct (v_git v); reflexivity.
Qed.
Lemma version_nl_free v : match v with Some v => version_writable v | None => true end = true ->
  Forall nl_free (version_lines (L "  ") v).
Proof.
  destruct v as [v|]; [|constructor]. cbn [version_lines]. intros Hw. unfold version_writable in Hw. bool_hyps.
  destruct (version_is_default v); constructor.
  - unfold nl_free, version_header. rewrite !contains_char_app.
    rewrite !digits_free. reflexivity.
  - apply Forall_app. split; unfold version_detail.
    + destruct (v_producer v); constructor; [|constructor]. unfold nl_free. rewrite !contains_char_app. now rewrite H1.
    + destruct (v_git v); constructor; [|constructor]. unfold nl_free. rewrite !contains_char_app. now rewrite H0.
Qed.

Lemma exts_lines_body e : exts_lines (L "  ") e = if exts_is_empty e then [] else hdr_extensions :: body_lines e.
Proof. reflexivity. Qed.
Lemma exts_nl_free e : exts_writable e = true -> Forall nl_free (exts_lines (L "  ") e).
Proof.
  intros H. rewrite exts_lines_body. destruct (exts_is_empty e); constructor; [reflexivity|].
  eapply Forall_impl; [|now apply body_lines_ok]. cbv beta. tauto.
Qed.
Lemma exts_steps e R A root node p n : wf_exts e -> exts_writable e = true -> section_rank (ps_state R A p) < 2 ->
  ps_ext _ _ p = xp_default ->
  exists st x, psteps R A root node p n (exts_lines (L "  ") e) = Ok (mk_parser R A st (ps_version _ _ p) x (ps_tree _ _ p))
    /\ section_rank st < 3 /\ xp_exts x = e.
Proof.
  intros W Hw Hp Hx. rewrite exts_lines_body. destruct (exts_is_empty e) eqn:E.
  - exists (ps_state _ _ p), xp_default. split; [destruct p; cbn in *; subst; reflexivity|]. split; [lia|].
    destruct e as [[|] [|]]; try discriminate. reflexivity.
  - destruct (body_round_trip e W Hw) as (s & Hs). exists SExtensions, (mk_xp s e). cbn [section_rank xp_exts]. split; [|auto].
    cbn [psteps].
    assert (Hh : step R A root node p n hdr_extensions = Ok (mk_parser R A SExtensions (ps_version _ _ p) (ps_ext _ _ p) (ps_tree _ _ p))).
    { unfold step. change (blank hdr_extensions) with false. cbv iota. unfold parse_line.
      change (indented hdr_extensions) with (0, hdr_extensions). cbv iota beta.
      change (starts_with (L "===") hdr_extensions) with true. cbv iota beta.
      unfold parse_section_header. change (streqb hdr_extensions hdr_extensions) with true. cbn [rbind fst snd section_rank].
      destruct (Nat.leb_spec 2 (section_rank (ps_state R A p))); [lia|reflexivity]. }
    rewrite Hh. cbn [rbind]. rewrite (psteps_ext R A root node _ _ _ (mk_xp s e)); auto.
    + eapply Forall_impl; [|now apply body_lines_ok]. cbv beta. tauto.
    + cbn [ps_ext]. now rewrite Hx.
Qed.
