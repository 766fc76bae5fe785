(** The line parser as a loop over chunks. *)
From Coq Require Import String List NArith ZArith Bool Lia PeanoNat ZifyBool ZifyN Sorted.
From Verif Require Import Base BaseFacts SimpleExt Out ExtLines Lines LinesFacts SpecLines Tree SpecTree TreeFacts Structural.
Import ListNotations.

(** ** Lines of a text *)

Lemma breaks_count s : breaks s = count_nl s.
Proof. reflexivity. Qed.

Lemma text_lines_cons l a : contains_char c_nl l = false -> text_lines (l ++ c_nl :: a) = l :: text_lines a.
Proof.
  induction l as [|c l IH]; intros H; [reflexivity|]. cbn [contains_char] in H. apply orb_false_iff in H as [Hc H].
  cbn [app text_lines]. unfold c_nl in Hc. rewrite Hc, IH by auto. reflexivity.
Qed.
Lemma text_lines_last l : contains_char c_nl l = false -> l <> [] -> text_lines l = [l].
Proof.
  induction l as [|c l IH]; intros H Hn; [congruence|]. cbn [contains_char] in H. apply orb_false_iff in H as [Hc H].
  cbn [text_lines]. unfold c_nl in Hc. rewrite Hc. destruct l as [|d l]; [reflexivity|].
  rewrite IH by (auto; discriminate). reflexivity.
Qed.

Definition drop_nl (l : list N) : list N := match split_at_char c_nl l with Some (a, _) => a | None => l end.
Lemma text_lines_first s : s <> [] ->
  text_lines s = drop_nl (fst (first_line s)) :: text_lines (snd (first_line s)).
Proof.
  intros Hs. unfold first_line. destruct (split_at_char c_nl s) as [[l a]|] eqn:E; cbn [fst snd].
  - apply split_at_char_spec in E as [-> H]. rewrite text_lines_cons by auto. f_equal.
    unfold drop_nl. now rewrite split_at_char_app.
  - unfold drop_nl. rewrite E. apply split_at_char_none in E. rewrite text_lines_last by auto. reflexivity.
Qed.
Lemma drop_nl_first s : exists w, fst (first_line s) = drop_nl (fst (first_line s)) ++ w /\ forallb is_ws w = true.
Proof.
  unfold first_line. destruct (split_at_char c_nl s) as [[l a]|] eqn:E; cbn [fst snd].
  - apply split_at_char_spec in E as [-> H]. exists [c_nl]. unfold drop_nl. now rewrite split_at_char_app.
  - exists []. unfold drop_nl. rewrite E, app_nil_r. auto.
Qed.
Lemma starts_with_app_ws p l w : forallb is_ws w = true -> forallb (fun c => negb (is_ws c)) p = true ->
  starts_with p (l ++ w) = starts_with p l.
Proof.
  intros Hw. unfold starts_with. revert l; induction p as [|x p IH]; intros l Hp; [reflexivity|].
  cbn [forallb] in Hp. bool_hyps. destruct l as [|y l].
  - destruct w as [|y w]; auto. cbn [app strip_prefix]. cbn [forallb] in Hw. bool_hyps.
    destruct (N.eqb_spec x y); auto. subst. congruence.
  - cbn [app strip_prefix]. destruct (x =? y)%N; auto.
Qed.
Lemma headers_first s : s <> [] ->
  headers s = (if starts_with (L "===") (fst (first_line s)) then [drop_nl (fst (first_line s))] else [])
              ++ headers (snd (first_line s)).
Proof.
  intros Hs. unfold headers. rewrite (text_lines_first s Hs). cbn [filter].
  destruct (drop_nl_first s) as (w & E & Hw).
  assert (Es : starts_with (L "===") (fst (first_line s)) = starts_with (L "===") (drop_nl (fst (first_line s))))
    by (rewrite E at 1; now apply starts_with_app_ws).
  rewrite Es. destruct (starts_with (L "===") (drop_nl _)); reflexivity.
Qed.

(** Indented lines are not headers. *)
Lemma indented_header s : starts_with (L "===") s = true ->
  indented s = (0, trim_end s) /\ starts_with (L "===") (trim_end s) = true.
Proof.
  unfold starts_with at 1. destruct (strip_prefix (L "===") s) as [r|] eqn:E; [|discriminate]. intros _.
  apply strip_prefix_spec in E. subst s.
  assert (T : exists t, trim_end (L "===" ++ r) = L "===" ++ t).
  { exists (trim_end r). unfold trim_end. destruct (trim_end_by is_ws r) as [|c t] eqn:Er.
    - apply trim_end_by_all in Er. rewrite trim_end_by_drop by auto. reflexivity.
    - rewrite trim_end_by_app by congruence. now rewrite Er. }
  destruct T as (t & Ht). unfold indented. rewrite Ht. cbn. auto.
Qed.
Lemma header_indented s r : indented s = (0, r) -> starts_with (L "===") r = true ->
  starts_with (L "===") s = true /\ r = trim_end s.
Proof.
  unfold indented. intros [= Hi <-]. rewrite Hi. cbn [Nat.mul skipn]. intros H. split; auto.
  destruct (trim_end_by_split is_ws s) as (w & E & Hw). rewrite E.
  rewrite starts_with_app_ws; auto.
Qed.
Lemma cont_not_header base l : is_cont base l = true -> starts_with (L "===") l = false.
Proof.
  unfold is_cont. intros H. bool_hyps. destruct (starts_with (L "===") l) eqn:E; auto.
  apply indented_header in E as [E _]. rewrite E in H. cbn [fst] in H. apply Nat.eqb_eq in H. lia.
Qed.
Lemma headers_conts f base s : headers (snd (conts f base s)) = headers s.
Proof.
  revert s; induction f as [|f IH]; intros s; cbn [conts]; auto. destruct s as [|x s]; auto.
  destruct (is_cont base (fst (first_line (x :: s)))) eqn:E; auto.
  rewrite (headers_first (x :: s)) by discriminate. rewrite (cont_not_header _ _ E). cbn [app].
  rewrite <- (IH (snd (first_line (x :: s)))). destruct (conts f base _); reflexivity.
Qed.

Lemma last_cons {X} (l : list X) : forall a d, last (a :: l) d = last l a.
Proof.
  induction l as [|b l IH]; intros a d; [reflexivity|]. change (last (a :: b :: l) d) with (last (b :: l) d).
  rewrite (IH b d), (IH b a). reflexivity.
Qed.

Section Parser.
  Variables R A : Type.
  Variable parse_root : list N -> pres (R + A).
  Variable parse_node : list N -> pres (R + A).
  Notation parser := (parser R A).
  Notation parse_line := (parse_line R A parse_root parse_node).
  Notation parse_chunks := (parse_chunks R A parse_root parse_node).
  Notation in_plan := (in_plan R A).
  Notation ps_state := (ps_state R A).
  Notation ps_tree := (ps_tree R A).

  (** Parsing only looks at the text without trailing white space. *)
  Lemma parse_line_eol (p : parser) n s : parse_line p n (trim_end_by is_eol s) = parse_line p n s.
  Proof. unfold Structural.parse_line. now rewrite indented_eol. Qed.
  Lemma parse_line_drop (p : parser) n s w : forallb is_ws w = true -> parse_line p n (s ++ w) = parse_line p n s.
  Proof. intros H. unfold Structural.parse_line. now rewrite indented_drop. Qed.

  Definition step (p : parser) (n : N) (raw : list N) : res perror parser :=
    if blank raw then Ok p else parse_line p n raw.

  Lemma blank_eol raw : (trim (trim_end_by is_eol raw) = []) <-> blank raw = true.
  Proof.
    rewrite trim_nil. unfold blank. rewrite <- !trim_end_by_all.
    now rewrite (trim_end_by_sub _ _ _ is_eol_ws).
  Qed.

  Lemma parse_chunks_step f p s n : s <> [] -> length s <= f ->
    exists f', f = S f' /\ exists m,
    parse_chunks f p (cu_new s n) =
      rbind (step p n (fst (take_chunk (in_plan p) s)))
        (fun p' => parse_chunks f' p' (cu_new (snd (take_chunk (in_plan p) s)) m)) /\
    (snd (take_chunk (in_plan p) s) <> [] -> m = (n + breaks (fst (take_chunk (in_plan p) s)))%N).
  Proof.
    intros Hs Hf. destruct f as [|f]; [destruct s; [congruence|cbn in Hf; lia]|].
    exists f. split; auto.
    destruct (next_chunk_spec (E := perror) (in_plan p) s n Hs) as (m & Hk & Hm). exists m. split; [|exact Hm].
    destruct s as [|x s]; [congruence|]. cbn [cu_new Structural.parse_chunks].
    rewrite Hk. cbn [rbind ck_rest]. unfold step.
    set (raw := fst (take_chunk (in_plan p) (x :: s))).
    unfold ck_text. cbn [ck_raw ck_line_no].
    destruct (trim (trim_end_by is_eol raw)) eqn:E.
    - apply blank_eol in E. rewrite E. reflexivity.
    - destruct (blank raw) eqn:B; [apply blank_eol in B; congruence|].
      now rewrite parse_line_eol.
  Qed.

  Lemma parse_chunks_fuel f1 f2 p s n : length s <= f1 -> length s <= f2 ->
    parse_chunks f1 p (cu_new s n) = parse_chunks f2 p (cu_new s n).
  Proof.
    revert f2 p s n. induction f1 as [f1 IH] using (well_founded_induction Wf_nat.lt_wf).
    intros f2 p s n H1 H2.
    destruct s as [|x s]; [destruct f1, f2; reflexivity|].
    destruct (parse_chunks_step f1 p (x :: s) n ltac:(discriminate) H1) as (g1 & -> & m1 & -> & M1).
    destruct (parse_chunks_step f2 p (x :: s) n ltac:(discriminate) H2) as (g2 & -> & m2 & -> & M2).
    pose proof (take_chunk_shorter (in_plan p) (x :: s) ltac:(discriminate)) as Hl.
    destruct (step _ _ _) as [p'| |]; cbn [rbind]; auto.
    destruct (take_chunk (in_plan p) (x :: s)) as [raw rest]. cbn [fst snd] in *.
    destruct rest as [|y rest]; [destruct g1, g2; reflexivity|].
    rewrite M1, M2 by discriminate. apply IH; cbn in *; lia.
  Qed.

  (** The parser over the rest of a text. *)
  Definition prest (p : parser) (n : N) (s : list N) : res perror parser :=
    parse_chunks (length s) p (cu_new s n).

  Lemma prest_nil p n : prest p n [] = Ok p.
  Proof. reflexivity. Qed.
  Lemma prest_step p n s : s <> [] ->
    prest p n s =
      rbind (step p n (fst (take_chunk (in_plan p) s)))
        (fun p' => prest p' (n + breaks (fst (take_chunk (in_plan p) s))) (snd (take_chunk (in_plan p) s))).
  Proof.
    intros Hs. unfold prest at 1.
    destruct (parse_chunks_step (length s) p s n Hs (le_n _)) as (f & Hf & m & -> & M).
    pose proof (take_chunk_shorter (in_plan p) s Hs) as Hl.
    destruct (step _ _ _) as [p'| |]; cbn [rbind]; auto. unfold prest.
    destruct (snd (take_chunk (in_plan p) s)) as [|y rest] eqn:E; [destruct f; reflexivity|].
    rewrite M by discriminate. apply parse_chunks_fuel; cbn in *; lia.
  Qed.

  (** Induction over the chunks of a text. *)
  Lemma prest_ind (P : parser -> N -> list N -> Prop) :
    (forall p n, P p n []) ->
    (forall p n s, s <> [] ->
       (forall p', step p n (fst (take_chunk (in_plan p) s)) = Ok p' ->
          P p' (n + breaks (fst (take_chunk (in_plan p) s)))%N (snd (take_chunk (in_plan p) s))) ->
       P p n s) ->
    forall p n s, P p n s.
  Proof.
    intros H0 HS p n s. revert p n. induction s as [s IH] using (well_founded_induction (Wf_nat.well_founded_ltof _ (@length N))).
    unfold Wf_nat.ltof in IH. intros p n. destruct s as [|x s]; auto.
    apply HS; [discriminate|]. intros p' _. apply IH. now apply take_chunk_shorter.
  Qed.

  (** ** Section order *)

  Lemma parse_section_header_rank p n s st v :
    parse_section_header R A p n s = Ok (st, v) -> s = trim_end s ->
    header_section s = Some (section_rank st).
  Proof.
    unfold parse_section_header, header_section. intros H Ht. rewrite <- Ht.
    unfold hdr_extensions, hdr_plan, hdr_version in *.
    destruct (streqb s (L "=== Extensions")) eqn:E1; [injection H as <- <-; auto|].
    destruct (streqb s (L "=== Plan")) eqn:E2; [injection H as <- <-; auto|].
    destruct (strip_prefix (L "=== Version") s) as [rest|] eqn:E; [|discriminate].
    destruct rest as [|c rest].
    - exfalso. cbn in H. discriminate.
    - destruct (N.eqb_spec c c_sp); [|discriminate]. subst c.
      apply rmap_ok in H as (v' & _ & [= -> ->]).
      assert (Hs : starts_with (L "=== Version ") s = true).
      { apply strip_prefix_spec in E. unfold starts_with.
        assert (strip_prefix (L "=== Version ") s = Some rest) as ->; auto.
        apply strip_prefix_spec. rewrite E. reflexivity. }
      now rewrite Hs.
  Qed.

  Lemma parse_line_state p n raw p' : parse_line p n raw = Ok p' ->
    (starts_with (L "===") raw = true /\
     header_section raw = Some (section_rank (ps_state p')) /\
     section_rank (ps_state p) < section_rank (ps_state p')) \/
    (starts_with (L "===") raw = false /\ ps_state p' = ps_state p /\ (ps_state p = SInitial -> blank raw = true)).
  Proof.
    unfold Structural.parse_line. destruct (indented raw) as [i s] eqn:Ei.
    destruct (match i with 0 => starts_with (L "===") s | _ => false end) eqn:Eh.
    - destruct i; [|discriminate]. destruct (header_indented _ _ Ei Eh) as [Hr ->]. intros H.
      apply rbind_ok in H as ([st v] & Hs & H). cbn [fst snd] in H.
      destruct (Nat.leb_spec (section_rank st) (section_rank (ps_state p))); [discriminate|].
      injection H as <-. left. cbn. split; auto. split; [|lia].
      apply parse_section_header_rank in Hs.
      2:{ unfold trim_end. now rewrite trim_end_idem. }
      unfold header_section in *. unfold trim_end in *. now rewrite trim_end_idem in Hs.
    - intros H. right. split.
      + destruct (starts_with (L "===") raw) eqn:E; auto. apply indented_header in E as [E E'].
        rewrite Ei in E. injection E as -> ->. congruence.
      + destruct (Structural.ps_state R A p) eqn:Es.
        * destruct i; [|discriminate]. destruct (trim s) eqn:Et; [|discriminate]. injection H as <-. split; auto.
          intros _. unfold indented in Ei. injection Ei as Ei <-. rewrite Ei in Et. cbn [Nat.mul skipn] in Et.
          apply trim_nil, trim_end_by_all in Et. unfold trim_end in Et. rewrite trim_end_idem in Et.
          now apply trim_end_by_all in Et.
        * split; [|discriminate]. destruct i as [|[|i]]; [destruct (trim s); [|discriminate]| |discriminate].
          -- injection H as <-. auto.
          -- apply rbind_ok in H as (? & _ & H). now injection H as <-.
        * split; [|discriminate]. apply rbind_ok in H as (? & _ & H). now injection H as <-.
        * split; [|discriminate]. apply rbind_ok in H as (? & _ & H). apply rbind_ok in H as (? & _ & H). now injection H as <-.
  Qed.

  Lemma blank_not_header raw : blank raw = true -> starts_with (L "===") raw = false.
  Proof.
    intros B. pose proof (starts_with_app_ws (L "===") [] raw B eq_refl) as E. exact E.
  Qed.

  Lemma starts_with_app_l p a b : starts_with p a = true -> starts_with p (a ++ b) = true.
  Proof.
    unfold starts_with. destruct (strip_prefix p a) as [r|] eqn:E; [|discriminate].
    apply strip_prefix_spec in E as ->. rewrite <- app_assoc, strip_prefix_app. auto.
  Qed.
  Lemma parse_headers p n s p' : prest p n s = Ok p' ->
    exists rs, map header_section (headers s) = map Some rs /\
      Sorted lt (section_rank (ps_state p) :: rs) /\
      section_rank (ps_state p') = last rs (section_rank (ps_state p)).
  Proof.
    induction p, n, s as [p n|p n s Hs IH] using prest_ind.
    - intros [= <-]. exists []. repeat constructor.
    - intros H. rewrite prest_step in H by auto.
      apply rbind_ok in H as (p1 & H1 & H2). specialize (IH p1 H1 H2) as (rs & E1 & E2 & E3). clear H2.
      unfold step in H1. unfold take_chunk in *. rewrite (headers_first s Hs).
      destruct (first_line s) as [l a] eqn:El. cbn [fst snd].
      assert (Hh : headers (snd (if in_plan p then let (c, r) := conts (length a) (fst (indented l)) a in (l ++ c, r) else (l, a)))
                   = headers a).
      { destruct (in_plan p); auto. rewrite <- (headers_conts (length a) (fst (indented l)) a).
        destruct (conts _ _ a); reflexivity. }
      rewrite Hh in E1. clear Hh.
      set (raw := fst (if in_plan p then _ else _)) in *.
      assert (Hraw : raw = l \/ in_plan p = true).
      { unfold raw. destruct (in_plan p); auto. }
      assert (Hhd : starts_with (L "===") l = true -> starts_with (L "===") raw = true).
      { intros E. unfold raw. destruct (in_plan p); auto. destruct (conts _ _ a). cbn [fst].
        now apply starts_with_app_l. }
      destruct (blank raw) eqn:B.
      + injection H1 as <-. destruct (starts_with (L "===") l) eqn:E.
        { apply blank_not_header in B. rewrite Hhd in B; auto. discriminate. }
        cbn [app]. eauto.
      + apply parse_line_state in H1 as [(S1 & S2 & S3)|(S1 & S2 & _)].
        * destruct Hraw as [Hraw|Hp].
          2:{ exfalso. unfold Structural.in_plan in Hp. destruct (ps_state p); try discriminate.
              destruct (ps_state p1); cbn in S3; lia. }
          rewrite Hraw in S1, S2. rewrite S1. cbn [app map]. exists (section_rank (ps_state p1) :: rs).
          cbn [map]. rewrite E1. split; [|split].
          -- f_equal. rewrite <- S2. destruct (drop_nl_first s) as (w & Ew & Hw). rewrite El in Ew. cbn [fst] in Ew.
             unfold header_section, trim_end.
             assert (trim_end_by is_ws l = trim_end_by is_ws (drop_nl l)) as -> by (rewrite Ew at 1; now apply trim_end_by_drop).
             reflexivity.
          -- constructor; auto.
          -- rewrite E3. symmetry. apply last_cons.
        * destruct (starts_with (L "===") l) eqn:E.
          { rewrite Hhd in S1; auto. discriminate. }
          cbn [app]. rewrite S2 in E2, E3. eauto.
  Qed.
End Parser.
