(** C04, C05: names and string literals survive writing and reading. *)
From Coq Require Import String List NArith ZArith Bool.
From Verif Require Import Base Peg Names SpecNames NamesFacts.
Import ListNotations.

(** C04.  Whatever the tables say, a name is read back from its written form,
    and reading stops exactly where the name stops, provided what follows does
    not continue an identifier. *)
Theorem C04_name_round_trip :
  forall (U : Unicode) (s rest : list N) (E : Type),
    name_ok s ->
    hd_not is_idchar rest = true ->
    exists n, g_name (show_name s ++ rest) = Some (n, rest) /\ @lower_name E n = Ok s.
Proof.
  intros U s rest E Hs Hr. exists (nm_of s). split.
  - now apply g_name_show.
  - now apply lower_nm_of.
Qed.
Print Assumptions C04_name_round_trip.

(** The condition is exact: a name holding a character that is written as a
    numeric escape is read back as a different name. *)
Theorem C04_name_round_trip_only_if :
  forall (U : Unicode) (s rest : list N) (E : Type) n,
    hd_not is_idchar rest = true ->
    g_name (show_name s ++ rest) = Some (n, rest) ->
    @lower_name E n = Ok s ->
    name_ok s.
Proof.
  intros U s rest E n Hr Hg Hl. rewrite g_name_show in Hg by auto. injection Hg as <-.
  now apply lower_nm_of_iff in Hl.
Qed.
Print Assumptions C04_name_round_trip_only_if.

(** Two different names are never written alike. *)
Theorem C04_names_distinct :
  forall (U : Unicode) (s t : list N),
    name_ok s -> name_ok t -> show_name s = show_name t -> s = t.
Proof.
  intros U s t Hs Ht E.
  pose proof (g_name_show s [] eq_refl) as H1. pose proof (g_name_show t [] eq_refl) as H2.
  rewrite E in H1. rewrite H1 in H2. injection H2 as H2.
  pose proof (@lower_nm_of U unit s Hs) as L1. pose proof (@lower_nm_of U unit t Ht) as L2. congruence.
Qed.
Print Assumptions C04_names_distinct.

(** C05.  A string literal is read back from its written form, whatever follows. *)
Theorem C05_string_round_trip :
  forall (U : Unicode) (s rest : list N) (E : Type),
    str_ok s = true ->
    exists t, g_string_literal (show_string s ++ rest) = Some (t, rest) /\
              @unescape_string E c_sq t = Ok s.
Proof.
  intros U s rest E Hs. exists ([c_sq] ++ escape_debug s ++ [c_sq]). split.
  - unfold show_string. rewrite <- !app_assoc. apply g_quoted_escaped. now right.
  - rewrite unescape_escaped by now right. f_equal. now apply str_back_iff.
Qed.
Print Assumptions C05_string_round_trip.

(** The condition is exact: any other string comes back changed (never as an
    error or a panic). *)
Theorem C05_string_other_changes :
  forall (U : Unicode) (s rest : list N) (E : Type),
    str_ok s = false ->
    exists t s', g_string_literal (show_string s ++ rest) = Some (t, rest) /\
                 @unescape_string E c_sq t = Ok s' /\ s' <> s.
Proof.
  intros U s rest E Hs. exists ([c_sq] ++ escape_debug s ++ [c_sq]), (str_back s). split; [|split].
  - unfold show_string. rewrite <- !app_assoc. apply g_quoted_escaped. now right.
  - now rewrite unescape_escaped by now right.
  - intros H. apply str_back_iff in H. congruence.
Qed.
Print Assumptions C05_string_other_changes.

(** Reading any text the grammar accepts as quoted never panics. *)
Theorem C05_quoted_text_never_panics :
  forall (q : N) (s t rest : list N) (E : Type),
    q = c_dq \/ q = c_sq ->
    g_quoted q s = Some (t, rest) -> exists v, @unescape_string E q t = Ok v.
Proof.
  intros q s t rest E Hq H. eapply g_quoted_unescape; eauto. destruct Hq; subst; discriminate.
Qed.
Print Assumptions C05_quoted_text_never_panics.

(** ** The hypotheses are met *)

Example ex_name_quoted :
  name_ok (H := ascii_tables) (L "a ""b"" \ c") /\
  show_name (H := ascii_tables) (L "a ""b"" \ c") = L """a \""b\"" \\ c""".
Proof. split; [right|]; reflexivity. Qed.

Example ex_name_plain : show_name (H := ascii_tables) (L "my_table2") = L "my_table2".
Proof. reflexivity. Qed.

Example ex_string_newline :
  str_ok (H := ascii_tables) [97; 10; 39; 98]%N = true /\
  show_string (H := ascii_tables) [97; 10; 39; 98]%N = L "'a\n\'b'".
Proof. split; reflexivity. Qed.

(** An escape character (U+001B) is written [\u{1b}] and read as "u{1b}". *)
Example ex_string_escape_lost :
  str_ok (H := ascii_tables) [27]%N = false /\
  show_string (H := ascii_tables) [27]%N = L "'\u{1b}'" /\
  @unescape_string unit c_sq (L "'\u{1b}'") = Ok (L "u{1b}").
Proof. repeat split; reflexivity. Qed.
