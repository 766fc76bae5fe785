(** Proofs about Names.v. *)
From Coq Require Import String List NArith ZArith Bool Lia ZifyN ZifyNat ZifyBool.
From Verif Require Import Base BaseFacts Peg PegFacts Names SpecNames.
Import ListNotations.

(** ** Consumption *)

Lemma strict_identifier : strict g_identifier.
Proof. unfold g_identifier. peg_shrink. Qed.
Lemma strict_integer : strict g_integer.
Proof. unfold g_integer. peg_shrink. Qed.
Lemma strict_float : strict g_float.
Proof. unfold g_float. peg_shrink. Qed.
Lemma strict_boolean : strict g_boolean.
Proof. unfold g_boolean. peg_shrink. Qed.
Lemma strict_null : strict g_null.
Proof. unfold g_null. peg_shrink. Qed.

(** Quoted text is split off the input unchanged. *)
Lemma quoted_rest_split q s b t : quoted_rest q s = Some (b, t) -> s = b ++ t /\ b <> [].
Proof.
  revert b t. induction s as [s IH] using (well_founded_induction (Wf_nat.well_founded_ltof _ (@length N))).
  unfold Wf_nat.ltof in IH. destruct s as [|c r]; intros b t; cbn; [discriminate|].
  destruct (c =? c_bs)%N.
  - destruct r as [|x r']; [discriminate|].
    destruct (quoted_rest q r') as [[b' t']|] eqn:E; [|discriminate].
    intros [= <- <-]. destruct (IH r' ltac:(cbn; lia) _ _ E) as [-> _]. split; [reflexivity|discriminate].
  - destruct (c =? q)%N; [intros [= <- <-]; split; [reflexivity|discriminate]|].
    destruct (quoted_rest q r) as [[b' t']|] eqn:E; [|discriminate].
    intros [= <- <-]. destruct (IH r ltac:(cbn; lia) _ _ E) as [-> _]. split; [reflexivity|discriminate].
Qed.

Lemma g_quoted_split q s b t : g_quoted q s = Some (b, t) -> s = b ++ t /\ b <> [].
Proof.
  unfold g_quoted. destruct s as [|c r]; [discriminate|]. destruct (c =? q)%N; [|discriminate].
  destruct (quoted_rest q r) as [[b' t']|] eqn:E; [|discriminate]. intros [= <- <-].
  apply quoted_rest_split in E as [-> _]. split; [reflexivity|discriminate].
Qed.

Lemma strict_quoted q : strict (g_quoted q).
Proof.
  intros s b t H. apply g_quoted_split in H as [-> Hb]. rewrite app_length.
  destruct b; [congruence|cbn; lia].
Qed.
Lemma strict_string_literal : strict g_string_literal.
Proof. apply strict_quoted. Qed.
Lemma strict_quoted_name : strict g_quoted_name.
Proof. apply strict_quoted. Qed.
#[global] Hint Resolve strict_identifier strict_integer strict_float strict_boolean strict_null
  strict_string_literal strict_quoted_name : peg.
Lemma strict_name : strict g_name.
Proof. unfold g_name. peg_shrink. Qed.
#[global] Hint Resolve strict_name : peg.

(** ** Identifiers and integers *)

Lemma g_identifier_app s rest :
  is_identifier s = true -> hd_not is_idchar rest = true -> g_identifier (s ++ rest) = Some (s, rest).
Proof.
  destruct s as [|c r]; cbn [is_identifier]; [discriminate|]. intros H Hr; bool_hyps.
  unfold g_identifier. cbn [app]. eapply pbind_some.
  - unfold pchar. now rewrite H.
  - eapply pbind_some; [now apply pwhile_app|reflexivity].
Qed.

Lemma g_identifier_none s : hd_not is_alpha s = true -> g_identifier s = None.
Proof.
  intros H. unfold g_identifier. apply pbind_none. destruct s as [|c s]; cbn in *; auto.
  bool_hyps. now rewrite H.
Qed.

Lemma g_identifier_spec s a r :
  g_identifier s = Some (a, r) -> s = a ++ r /\ is_identifier a = true /\ hd_not is_idchar r = true.
Proof.
  unfold g_identifier, pbind, pchar, pwhile. destruct s as [|c s]; [discriminate|].
  destruct (is_alpha c) eqn:Hc; [|discriminate].
  destruct (span is_idchar s) as [x y] eqn:E. intros [= <- <-].
  apply span_spec in E as (-> & H1 & H2). cbn. rewrite Hc, H1. auto.
Qed.

Lemma show_N_app_digit n rest : hd_not is_digit rest = true ->
  pwhile1 is_digit (show_N n ++ rest) = Some (show_N n, rest).
Proof. intros. apply pwhile1_app; auto using show_N_nonempty, show_N_digits. Qed.

Lemma digit_head_not n rest (f : N -> bool) :
  (forall c, is_digit c = true -> f c = false) -> hd_not f (show_N n ++ rest) = true.
Proof.
  intros Hf. destruct (show_N_head n) as (c & r & -> & Hc). cbn. now rewrite Hf.
Qed.

Lemma g_integer_show_N n rest : hd_not is_digit rest = true ->
  g_integer (show_N n ++ rest) = Some (show_N n, rest).
Proof.
  intros Hr. unfold g_integer. eapply pbind_some.
  - apply popt_none. apply (ptok_none_hd [] 45%N). apply digit_head_not. intros; chars.
  - eapply pbind_some; [now apply show_N_app_digit|reflexivity].
Qed.

Lemma g_integer_show_Z z rest : hd_not is_digit rest = true ->
  g_integer (show_Z z ++ rest) = Some (show_Z z, rest).
Proof.
  intros Hr. unfold show_Z. destruct (z <? 0)%Z; [|now apply g_integer_show_N].
  unfold g_integer. eapply pbind_some; [apply popt_some; reflexivity|].
  cbn zeta. eapply pbind_some; [now apply show_N_app_digit|reflexivity].
Qed.

Lemma show_Z_head z : exists c r, show_Z z = c :: r /\ (is_digit c || (c =? 45)%N) = true.
Proof.
  unfold show_Z. destruct (z <? 0)%Z.
  - eexists _, _; split; [reflexivity|]. apply orb_true_r.
  - destruct (show_N_head (Z.abs_N z)) as (c & r & -> & H). exists c, r. now rewrite H.
Qed.

Lemma Z_head_not z rest (f : N -> bool) :
  (forall c, (is_digit c || (c =? 45)%N) = true -> f c = false) -> hd_not f (show_Z z ++ rest) = true.
Proof.
  intros Hf. destruct (show_Z_head z) as (c & r & -> & Hc). cbn. now rewrite Hf.
Qed.

(** ** Escaping *)

Section Esc.
  Context {U : Unicode}.

  Lemma hexs_chars f n acc :
    forallb (fun c => is_digit c || is_lower c) acc = true ->
    forallb (fun c => is_digit c || is_lower c) (hexs f n acc) = true.
  Proof.
    revert n acc; induction f as [|f IH]; intros n acc Ha; auto. cbn [hexs].
    assert (Hc : forallb (fun c => is_digit c || is_lower c) (hex_digit (n mod 16) :: acc) = true).
    { cbn [forallb]. rewrite Ha, andb_true_r. pose proof (N.mod_lt n 16 ltac:(lia)).
      unfold hex_digit. destruct (n mod 16 <? 10)%N eqn:E; chars. }
    destruct (n <? 16)%N; auto.
  Qed.

  Lemma hexs_len f n acc : length acc <= length (hexs f n acc).
  Proof.
    revert n acc; induction f as [|f IH]; intros n acc; cbn [hexs]; auto.
    destruct (n <? 16)%N; cbn; [lia|]. specialize (IH (n / 16)%N (hex_digit (n mod 16) :: acc)).
    cbn in IH. lia.
  Qed.

  Lemma show_hex_chars n : forallb (fun c => is_digit c || is_lower c) (show_hex n) = true.
  Proof. now apply hexs_chars. Qed.

  (** Text with no quote and no backslash is read as it stands. *)
  Definition plain (q c : N) : bool := negb (c =? q)%N && negb (c =? c_bs)%N.

  Lemma quoted_rest_plain q t s :
    forallb (plain q) t = true ->
    quoted_rest q (t ++ s) = option_map (fun x => (t ++ fst x, snd x)) (quoted_rest q s).
  Proof.
    induction t as [|c t IH]; cbn [forallb app]; intros H.
    - destruct (quoted_rest q s) as [[? ?]|]; reflexivity.
    - unfold plain in H at 1; bool_hyps. cbn [quoted_rest].
      rewrite H1, H, IH by auto. now destruct (quoted_rest q s) as [[? ?]|].
  Qed.

  Lemma unescape_plain {E} q t s :
    forallb (plain q) t = true ->
    @unescape_loop E q (t ++ s) = rmap (fun x => t ++ x) (unescape_loop q s).
  Proof.
    induction t as [|c t IH]; cbn [forallb app]; intros H.
    - destruct (unescape_loop q s); reflexivity.
    - unfold plain in H at 1; bool_hyps. cbn [unescape_loop].
      rewrite H1, H, IH by auto. now destruct (unescape_loop q s).
  Qed.

  Lemma escape_unicode_form c :
    exists t, escape_unicode c = c_bs :: 117%N :: t /\
              (forall q, q = c_dq \/ q = c_sq -> forallb (plain q) t = true) /\ 2 <= length t.
  Proof.
    exists (L "{" ++ show_hex c ++ L "}"). split; [reflexivity|]. split.
    - intros q Hq. cbn [L app]. cbn [forallb]. rewrite forallb_app.
      assert (H : forallb (plain q) (show_hex c) = true).
      { rewrite forallb_forall. intros x Hx.
        pose proof (show_hex_chars c) as H. rewrite forallb_forall in H. specialize (H _ Hx).
        unfold plain. destruct Hq; subst q; chars. }
      rewrite H. destruct Hq; subst q; reflexivity.
    - cbn. rewrite app_length. cbn. lia.
  Qed.

  (** What the reader makes of one written character. *)
  Definition esc_back (ge : bool) (c : N) : list N :=
    if esc_ok ge c then [c]
    else if (c =? 0)%N then [48%N]
    else 117%N :: (L "{" ++ show_hex c ++ L "}").

  Definition quote_char (q : N) : Prop := q = c_dq \/ q = c_sq.

  Ltac eqs := repeat match goal with |- context [(?a =? ?b)%N] => destruct (N.eqb_spec a b) end.

  Lemma escape_char_cases ge c :
    (c = 0%N /\ escape_char ge c = [c_bs; 48%N] /\ esc_back ge c = [48%N] /\ esc_ok ge c = false)
    \/ (exists x, escape_char ge c = [c_bs; x] /\ esc_back ge c = [c] /\ esc_ok ge c = true /\
         (if (x =? 110)%N then c_nl else if (x =? 116)%N then c_tab
          else if (x =? 114)%N then c_cr else x) = c)
    \/ (escape_char ge c = [c] /\ esc_back ge c = [c] /\ esc_ok ge c = true /\ c <> c_bs /\
         (forall q, quote_char q -> plain q c = true))
    \/ (escape_char ge c = escape_unicode c /\ esc_back ge c = 117%N :: (L "{" ++ show_hex c ++ L "}") /\
        esc_ok ge c = false).
  Proof.
    unfold escape_char, esc_back, esc_ok.
    destruct (N.eqb_spec c 0); [left; subst; cbn; auto|].
    destruct (N.eqb_spec c c_tab); [right; left; exists 116%N; subst; cbn; auto|].
    destruct (N.eqb_spec c c_cr); [right; left; exists 114%N; subst; cbn; auto|].
    destruct (N.eqb_spec c c_nl); [right; left; exists 110%N; subst; cbn; auto|].
    destruct (N.eqb_spec c c_dq); [right; left; exists c_dq; subst; cbn; auto|].
    destruct (N.eqb_spec c c_sq); [right; left; exists c_sq; subst; cbn; auto|].
    destruct (N.eqb_spec c c_bs); [right; left; exists c_bs; subst; cbn; auto|].
    destruct (ge && grapheme_extend c) eqn:G.
    - right; right; right. cbn. now rewrite andb_false_r.
    - destruct (printable c) eqn:P; cbn; [|now auto 6].
      right; right; left. repeat split; auto. intros q [-> | ->]; unfold plain.
      + destruct (N.eqb_spec c c_dq); [congruence|]. destruct (N.eqb_spec c c_bs); [congruence|]. auto.
      + destruct (N.eqb_spec c c_sq); [congruence|]. destruct (N.eqb_spec c c_bs); [congruence|]. auto.
  Qed.

  Lemma esc_quoted_rest q ge c s : quote_char q ->
    quoted_rest q (escape_char ge c ++ s) =
      option_map (fun x => (escape_char ge c ++ fst x, snd x)) (quoted_rest q s).
  Proof.
    intros Hq. destruct (escape_char_cases ge c) as [(-> & E & _)|[(x & E & _)|[(E & _ & _ & _ & P)|(E & _)]]].
    - rewrite E. cbn. destruct (quoted_rest q s) as [[? ?]|]; reflexivity.
    - rewrite E. cbn. destruct (quoted_rest q s) as [[? ?]|]; reflexivity.
    - rewrite E. apply quoted_rest_plain. cbn. now rewrite P.
    - rewrite E. destruct (escape_unicode_form c) as (t & -> & Ht & _).
      cbn. rewrite quoted_rest_plain by auto. destruct (quoted_rest q s) as [[? ?]|]; reflexivity.
  Qed.

  Lemma esc_unescape {E} q ge c s : quote_char q ->
    @unescape_loop E q (escape_char ge c ++ s) = rmap (fun x => esc_back ge c ++ x) (unescape_loop q s).
  Proof.
    intros Hq. assert (Hqb : (c_bs =? q)%N = false) by (destruct Hq; subst; reflexivity).
    destruct (escape_char_cases ge c) as [(-> & E1 & B & _)|[(x & E1 & B & _ & X)|[(E1 & B & _ & _ & P)|(E1 & B & _)]]];
      rewrite E1, B.
    - cbn [app unescape_loop]. rewrite Hqb. cbn. destruct (unescape_loop q s); reflexivity.
    - cbn [app unescape_loop]. rewrite Hqb. cbn zeta. rewrite X. cbn.
      destruct (unescape_loop q s); reflexivity.
    - apply unescape_plain. cbn. now rewrite P.
    - destruct (escape_unicode_form c) as (t & E2 & Ht & _).
      assert (t = L "{" ++ show_hex c ++ L "}") as ->.
      { unfold escape_unicode in E2. cbn in E2 |- *. congruence. }
      rewrite E2. cbn [app unescape_loop]. rewrite Hqb. rewrite N.eqb_refl.
      change (123%N :: ?a) with (L "{" ++ a).
      rewrite (unescape_plain q (L "{" ++ show_hex c ++ L "}")) by auto.
      cbn. destruct (unescape_loop q s); reflexivity.
  Qed.

  Definition str_back (s : list N) : list N :=
    match s with
    | [] => []
    | c :: r => esc_back true c ++ concat (map (esc_back false) r)
    end.

  Lemma quoted_rest_escaped q s rest : quote_char q ->
    quoted_rest q (escape_debug s ++ q :: rest) = Some (escape_debug s ++ [q], rest).
  Proof.
    intros Hq.
    assert (Hend : quoted_rest q (q :: rest) = Some ([q], rest)).
    { cbn. assert ((q =? c_bs)%N = false) as -> by (destruct Hq; subst; reflexivity).
      now rewrite N.eqb_refl. }
    assert (Htl : forall r, quoted_rest q (concat (map (escape_char false) r) ++ q :: rest)
                            = Some (concat (map (escape_char false) r) ++ [q], rest)).
    { induction r as [|c r IH]; auto. cbn [map concat]. rewrite <- !app_assoc.
      rewrite esc_quoted_rest by auto. now rewrite IH. }
    destruct s as [|c r]; auto. cbn [escape_debug]. rewrite <- !app_assoc.
    rewrite esc_quoted_rest by auto. now rewrite Htl.
  Qed.

  Lemma g_quoted_escaped q s rest : quote_char q ->
    g_quoted q ([q] ++ escape_debug s ++ [q] ++ rest) = Some ([q] ++ escape_debug s ++ [q], rest).
  Proof.
    intros Hq. cbn. now rewrite N.eqb_refl, quoted_rest_escaped.
  Qed.

  Lemma unescape_escaped {E} q s : quote_char q ->
    @unescape_string E q ([q] ++ escape_debug s ++ [q]) = Ok (str_back s).
  Proof.
    intros Hq. cbn. rewrite N.eqb_refl.
    assert (Hend : @unescape_loop E q [q] = Ok []) by (cbn; now rewrite N.eqb_refl).
    assert (Htl : forall r, @unescape_loop E q (concat (map (escape_char false) r) ++ [q])
                            = Ok (concat (map (esc_back false) r))).
    { induction r as [|c r IH]; auto. cbn [map concat]. rewrite <- !app_assoc.
      rewrite esc_unescape by auto. now rewrite IH. }
    destruct s as [|c r]; auto. cbn [escape_debug str_back]. rewrite <- !app_assoc.
    rewrite esc_unescape by auto. now rewrite Htl.
  Qed.

  Lemma esc_back_ok ge c : esc_ok ge c = true -> esc_back ge c = [c].
  Proof. unfold esc_back. now intros ->. Qed.

  Lemma esc_back_bad ge c : esc_ok ge c = false ->
    (c = 0%N /\ esc_back ge c = [48%N]) \/ 2 <= length (esc_back ge c).
  Proof.
    unfold esc_back. intros ->. destruct (N.eqb_spec c 0); [left; auto|].
    right. cbn. rewrite app_length. cbn. lia.
  Qed.

  Lemma esc_back_len ge c : 1 <= length (esc_back ge c).
  Proof.
    destruct (esc_ok ge c) eqn:E; [rewrite esc_back_ok by auto; auto|].
    destruct (esc_back_bad _ _ E) as [[_ ->]|]; cbn; lia.
  Qed.

  Lemma back_tail_len r : length r <= length (concat (map (esc_back false) r)).
  Proof.
    induction r as [|c r IH]; cbn; auto. rewrite app_length. pose proof (esc_back_len false c). lia.
  Qed.

  Lemma esc_back_one ge c r t : esc_back ge c ++ t = c :: r -> length r <= length t ->
    esc_ok ge c = true /\ t = r.
  Proof.
    intros E Hl. destruct (esc_ok ge c) eqn:Ek.
    - rewrite esc_back_ok in E by auto. cbn in E. split; congruence.
    - exfalso. destruct (esc_back_bad _ _ Ek) as [[-> B]|B].
      + rewrite B in E. cbn in E. discriminate.
      + apply (f_equal (@length N)) in E. rewrite app_length in E. cbn in E. lia.
  Qed.

  (** The reader recovers exactly the strings written without numeric escapes. *)
  Lemma str_back_iff s : str_back s = s <-> str_ok s = true.
  Proof.
    assert (Htl : forall r, concat (map (esc_back false) r) = r <-> forallb (esc_ok false) r = true).
    { induction r as [|c r IH]; cbn [map concat forallb]; [tauto|]. split.
      - intros E. apply esc_back_one in E as [E1 E2]; [|apply back_tail_len].
        rewrite E1. now apply IH.
      - intros H; bool_hyps. rewrite esc_back_ok by auto. cbn. f_equal. now apply IH. }
    destruct s as [|c r]; cbn [str_back str_ok]; [tauto|]. split.
    - intros E. apply esc_back_one in E as [E1 E2]; [|apply back_tail_len].
      rewrite E1. now apply Htl.
    - intros H; bool_hyps. rewrite esc_back_ok by auto. cbn. f_equal. now apply Htl.
  Qed.

  (** Names. *)
  Lemma is_idchar_dq : is_idchar c_dq = false.
  Proof. reflexivity. Qed.

  Definition nm_of (s : list N) : nm :=
    if is_identifier s then NIdent s else NQuoted ([c_dq] ++ escape_debug s ++ [c_dq]).

  Lemma g_name_show s rest : hd_not is_idchar rest = true ->
    g_name (show_name s ++ rest) = Some (nm_of s, rest).
  Proof.
    intros Hr. unfold g_name, show_name, nm_of. destruct (is_identifier s) eqn:Ei.
    - apply palt_l. now apply pmap_some, g_identifier_app.
    - apply palt_r.
      + apply pmap_none. apply g_identifier_none. reflexivity.
      + apply pmap_some. rewrite <- !app_assoc. apply g_quoted_escaped. now left.
  Qed.

  (** Without the follow condition when the name is quoted. *)
  Lemma lower_nm_of {E} s : (is_identifier s = true \/ str_ok s = true) -> @lower_name E (nm_of s) = Ok s.
  Proof.
    unfold nm_of. destruct (is_identifier s) eqn:Ei; [reflexivity|].
    intros [|Hs]; [discriminate|]. cbn [lower_name]. rewrite unescape_escaped by now left.
    f_equal. now apply str_back_iff.
  Qed.

  Lemma lower_nm_of_iff {E} s :
    @lower_name E (nm_of s) = Ok s <-> is_identifier s = true \/ str_ok s = true.
  Proof.
    split; [|apply lower_nm_of]. unfold nm_of. destruct (is_identifier s) eqn:Ei; [auto|].
    cbn [lower_name]. rewrite unescape_escaped by now left. intros [= H].
    right. now apply str_back_iff.
  Qed.
End Esc.

(** Reading accepted quoted text never panics. *)
Lemma quoted_rest_unescape {E} q s b t : q <> c_bs ->
  quoted_rest q s = Some (b, t) -> exists v, @unescape_loop E q b = Ok v.
Proof.
  intros Hq. revert b t.
  induction s as [s IH] using (well_founded_induction (Wf_nat.well_founded_ltof _ (@length N))).
  unfold Wf_nat.ltof in IH. destruct s as [|c r]; intros b t; cbn; [discriminate|].
  destruct (N.eqb_spec c c_bs) as [->|Hc].
  - destruct r as [|x r']; [discriminate|].
    destruct (quoted_rest q r') as [[b' t']|] eqn:Er; [|discriminate].
    intros [= <- <-]. destruct (IH r' ltac:(cbn; lia) _ _ Er) as [v Hv].
    cbn [unescape_loop]. destruct (N.eqb_spec c_bs q); [congruence|]. rewrite N.eqb_refl.
    cbn zeta. rewrite Hv. cbn. eauto.
  - destruct (N.eqb_spec c q) as [->|Hcq].
    + intros [= <- <-]. cbn. rewrite N.eqb_refl. eauto.
    + destruct (quoted_rest q r) as [[b' t']|] eqn:Er; [|discriminate].
      intros [= <- <-]. destruct (IH r ltac:(cbn; lia) _ _ Er) as [v Hv].
      cbn [unescape_loop]. destruct (N.eqb_spec c q); [congruence|].
      destruct (N.eqb_spec c c_bs); [congruence|]. rewrite Hv. cbn. eauto.
Qed.

Lemma g_quoted_unescape {E} q s b t : q <> c_bs ->
  g_quoted q s = Some (b, t) -> exists v, @unescape_string E q b = Ok v.
Proof.
  intros Hq. unfold g_quoted. destruct s as [|c r]; [discriminate|].
  destruct (N.eqb_spec c q) as [->|]; [|discriminate].
  destruct (quoted_rest q r) as [[b' t']|] eqn:Er; [|discriminate]. intros [= <- <-].
  cbn. rewrite N.eqb_refl. eapply quoted_rest_unescape; eauto.
Qed.

Lemma g_name_lower {E} s n t : g_name s = Some (n, t) -> exists v, @lower_name E n = Ok v.
Proof.
  unfold g_name, palt, pmap. destruct (g_identifier s) as [[a r]|].
  - intros [= <- <-]. cbn; eauto.
  - destruct (g_quoted_name s) as [[a r]|] eqn:Eq; [|discriminate]. intros [= <- <-].
    cbn. eapply g_quoted_unescape; [|exact Eq]. discriminate.
Qed.
