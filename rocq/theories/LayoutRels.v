(** The writer of relations writes what SpecLayout.v says and nothing else. *)
From Coq Require Import String List NArith ZArith Bool Lia.
From Verif Require Import Base Names SimpleExt SimpleExtFacts Out Types Literals Exprs ExprEq ExtArgs Registry SpecRegistry Rels Structural Plan
  OutClosed Props_Aggregate SpecAggregate SpecMeaning MeaningFacts SpecText SpecNotation NotationBase NotationTypes NotationLits NotationExprs SpecLayout.
Import ListNotations.
Local Open Scope string_scope.
Local Open Scope list_scope.
Local Open Scope nat_scope.

(** An output and the texts it can be read as. *)
Definition means (o : out) (c : shows) : Prop := forall s, clean o s <-> c s.

Lemma each_iff os cs ss : Forall2 means os cs -> Forall2 clean os ss <-> each cs ss.
Proof.
  intros H. revert ss. unfold each. induction H as [|o c os cs Ho Hos IH]; intros ss.
  - split; intros K; inversion K; constructor.
  - split; intros K; inversion K; subst; (constructor; [now apply (Ho _)|now apply IH]).
Qed.
Lemma means_txt x : means (txt x) (eq x).
Proof. intros s. rewrite clean_txt. split; auto. Qed.
Lemma means_fail e : means (ofail e) nothing.
Proof. intros s. apply clean_fail. Qed.
Lemma Forall2_maps {A B C D} (R : C -> D -> Prop) (f : A -> C) (g : B -> D) (Q : A -> B -> Prop) l m :
  Forall2 Q l m -> (forall a b, Q a b -> R (f a) (g b)) -> Forall2 R (map f l) (map g m).
Proof. intros H K. induction H; constructor; auto. Qed.
Lemma Forall2_same {A C D} (R : C -> D -> Prop) (f : A -> C) (g : A -> D) l : (forall a, R (f a) (g a)) -> Forall2 R (map f l) (map g l).
Proof. intros K. induction l; constructor; auto. Qed.
Lemma Forall2_nth {A B} (R : A -> B -> Prop) l m i : Forall2 R l m ->
  match nth_error l i, nth_error m i with Some a, Some b => R a b | None, None => True | _, _ => False end.
Proof. intros H. revert i. induction H as [|a b l m Hab Hlm IH]; intros [|i]; cbn; auto. apply IH. Qed.

Lemma indentation_eq op d : indent_text op d = indentation op d.
Proof. unfold indent_text. induction d as [|d IH]; cbn [repeat concat indentation]; [reflexivity|]. now rewrite IH. Qed.

(** ** Columns and lines *)

Lemma columns_iff op h cols s : Forall2 means (hd_cols h) cols ->
  clean (osep (L ", ") (shown_columns op h)) s <-> columns_text op cols (hd_emit h) s.
Proof.
  intros H. rewrite clean_sep. unfold shown_columns.
  assert (A : (op_show_emit op = true \/ (forall m, hd_emit h <> Some (EmEmit m))) ->
    (exists ss, Forall2 clean (hd_cols h) ss /\ s = join (L ", ") ss) <-> columns_text op cols (hd_emit h) s).
  { intros C. split.
    - intros (ss & K & ->). apply (co_all op cols (hd_emit h) ss); auto. now apply (each_iff _ _ _ H).
    - intros K. destruct K as [m ss E K|k ss E K].
      + exfalso. destruct C as [C|C]; [congruence|]. now apply (C m).
      + exists ss. split; [now apply (each_iff _ _ _ H)|reflexivity]. }
  destruct (op_show_emit op) eqn:E; [apply A; auto|]. destruct (hd_emit h) as [[|m]|]; [apply A; right; discriminate| |apply A; right; discriminate].
  clear A. assert (M : forall ss, Forall2 clean (map (fun i => match zget (hd_cols h) i with Some o => o | None => ofail (FPlan FInvalid "Emitted") end) m) ss
    <-> Forall2 (fun i s => (0 <= i)%Z /\ exists c, nth_error cols (Z.to_nat i) = Some c /\ c s) m ss).
  { intros ss. apply clean_map. apply Forall_forall. intros i _ x. unfold zget. pose proof (Forall2_nth _ _ _ (Z.to_nat i) H) as N.
    destruct (Z.ltb_spec i 0); [rewrite clean_fail; split; [tauto|]; intros [? _]; lia|].
    destruct (nth_error (hd_cols h) (Z.to_nat i)) as [o|], (nth_error cols (Z.to_nat i)) as [c|]; try contradiction.
    - rewrite (N x). split; [intros K; split; [lia|]; eauto|]. intros (_ & c' & [= <-] & K). exact K.
    - rewrite clean_fail. split; [tauto|]. intros (_ & c & C & _). discriminate. }
  setoid_rewrite M. split.
  - intros (ss & K & ->). now apply (co_mapped op cols m ss).
  - intros K. inversion K as [m' ss E1 K1|k ss E1 K1]; subst; [eauto|]. destruct E1 as [E1|E1]; [congruence|]. now destruct (E1 m).
Qed.
Lemma plain_iff op h cols : Forall2 means (hd_cols h) cols -> hd_explicit h = false -> means (output_clause op h) (plain_output op cols (hd_emit h)).
Proof. intros H E s. unfold output_clause, plain_output. rewrite E, clean_before. now setoid_rewrite (columns_iff op h cols _ H). Qed.
Lemma reference_out z : means (txt (ref_text z)) (reference z).
Proof.
  intros s. rewrite clean_txt. unfold reference, ref_text. split.
  - intros ->. exists (show_Z z). rewrite numeral_iff. auto.
  - intros (x & H & ->). apply numeral_iff in H as ->. reflexivity.
Qed.
Lemma mapped_iff op h cols m : Forall2 means (hd_cols h) cols -> hd_explicit h = true -> hd_emit h = Some (EmEmit m) ->
  means (output_clause op h) (mapped_output cols m).
Proof.
  intros H E K s. unfold output_clause, mapped_output, emit_suffix_out. rewrite E, K, clean_before. setoid_rewrite clean_app. setoid_rewrite clean_before. setoid_rewrite clean_sep.
  assert (R : forall ms, Forall2 clean (map (fun i => txt (ref_text i)) m) ms <-> Forall2 reference m ms).
  { intros ms. apply clean_map. apply Forall_forall. intros i _. apply reference_out. }
  split.
  - intros (y & (a & b & (ss & H1 & ->) & (z & (ms & H2 & ->) & ->) & ->) & ->). exists ss, ms. split; [now apply (each_iff _ _ _ H)|]. split; [now apply R|reflexivity].
  - intros (ss & ms & H1 & H2 & ->). eexists. split; [|reflexivity]. exists (listed ss), (L " |> " ++ listed ms). split; [|split].
    + exists ss. split; [now apply (each_iff _ _ _ H)|reflexivity].
    + eexists. split; [|reflexivity]. exists ms. split; [now apply R|reflexivity].
    + reflexivity.
Qed.
Lemma named_iff n o c : means o c -> means (named_out (n, o)) (argument_text (Some n, c)).
Proof. intros H s. unfold named_out. cbn [fst snd argument_text]. rewrite clean_before. setoid_rewrite (H _). split; intros (x & K & ->); exists x; (split; [exact K|]); now rewrite <- app_assoc. Qed.
Definition means_args (os : list out) (args : list argument) : Prop := Forall2 (fun o a => means o (argument_text a)) os args.
Lemma args_texts os args ss : means_args os args -> Forall2 clean os ss <-> Forall2 argument_text args ss.
Proof.
  intros H. revert ss. induction H as [|o c os cs Ho Hos IH]; intros ss.
  - split; intros K; inversion K; constructor.
  - split; intros K; inversion K; subst; (constructor; [now apply (Ho _)|now apply IH]).
Qed.
Lemma bare_args os cs : Forall2 means os cs -> means_args os (bare_arguments cs).
Proof. induction 1; constructor; auto. Qed.
Lemma arguments_iff p n args : means_args (p ++ map named_out n) args -> means (arguments_out p n) (arguments_text args).
Proof.
  intros H s. unfold arguments_out, arguments_text.
  destruct (p ++ map named_out n) as [|o os] eqn:E.
  - apply app_eq_nil in E as [-> E]. apply map_eq_nil in E as ->. inversion H; subst. rewrite clean_txt. split; [intros ->; exists []; split; [constructor|reflexivity]|].
    intros (ss & K & ->). inversion K; subst. reflexivity.
  - assert (G : clean (osep (L ", ") (o :: os)) s <-> exists ss, Forall2 argument_text args ss /\ s = (if ss then L "_" else listed ss)).
    { rewrite clean_sep. setoid_rewrite (args_texts _ _ _ H). inversion H as [|? a ? args' Ha Hargs]; subst.
      split; intros (ss & K & ->); inversion K; subst; eexists; (split; [exact K|reflexivity]). }
    destruct p; [destruct n; [discriminate|exact G]|exact G].
Qed.

Definition nl : list N := [10%N].
Lemma bare_iff op d h word cols s : hd_name h = txt word -> hd_args h = None -> Forall2 means (hd_cols h) cols ->
  clean (header_out op d h) s <-> exists ls, bare_line op d word cols (hd_emit h) ls /\ s = join nl ls.
Proof.
  intros E1 E2 H. unfold header_out, bare_line. rewrite E1, E2, indentation_eq. setoid_rewrite clean_before. setoid_rewrite clean_before. setoid_rewrite clean_before.
  setoid_rewrite clean_after. setoid_rewrite (columns_iff op h cols _ H). split.
  - intros (? & (? & (? & (x & K & ->) & ->) & ->) & ->). eexists. split; [exists x; split; [exact K|reflexivity]|reflexivity].
  - intros (ls & (x & K & ->) & ->). cbn [join]. eexists. split; [eexists; split; [eexists; split; [exists x; split; [exact K|reflexivity]|reflexivity]|reflexivity]|reflexivity].
Qed.
Lemma full_iff op d h word p n args out s : hd_name h = txt word -> hd_args h = Some (RaInline p n) -> means_args (p ++ map named_out n) args ->
  means (output_clause op h) out -> clean (header_out op d h) s <-> exists ls, full_line op d word args out ls /\ s = join nl ls.
Proof.
  intros E1 E2 H1 H2. apply arguments_iff in H1. unfold header_out, full_line. rewrite E1, E2, indentation_eq. setoid_rewrite clean_before. setoid_rewrite clean_before. setoid_rewrite clean_before.
  setoid_rewrite clean_after. setoid_rewrite clean_app. setoid_rewrite clean_before. setoid_rewrite (H1 _). setoid_rewrite (H2 _). split.
  - intros (? & (? & (? & (x & (a & b & K1 & (o & K2 & ->) & ->) & ->) & ->) & ->) & ->). eexists. split; [exists a, o; split; [exact K1|]; split; [exact K2|reflexivity]|].
    cbn [join]. now rewrite <- !app_assoc.
  - intros (ls & (a & o & K1 & K2 & ->) & ->). cbn [join]. do 3 (eexists; split; [|reflexivity]). exists (a ++ L " " ++ o). split; [|now rewrite <- !app_assoc].
    exists a, (L " " ++ o). split; [exact K1|]. split; [|reflexivity]. exists o. auto.
Qed.

(** The rows of a long line, each with its end. *)
Lemma row_lines_iff op d b l s : clean (row_lines op d b l) s <-> exists ss, Forall2 clean l ss
  /\ s = concat (map (fun x => indentation op (S d) ++ L "- " ++ x ++ nl) (if b then map (fun x => x ++ L ",") ss else commas ss)).
Proof.
  revert s. induction l as [|o l IH]; intros s.
  - cbn [row_lines]. rewrite clean_nil. split; [intros ->; exists []; split; [constructor|now destruct b]|]. intros (ss & K & ->). inversion K. now destruct b.
  - assert (R : forall c, clean (row_line op d c o) s <-> exists x, clean o x /\ s = indentation op (S d) ++ L "- " ++ (x ++ if c then L "," else []) ++ nl).
    { intros c. unfold row_line. rewrite clean_before. setoid_rewrite clean_after. rewrite indentation_eq. split.
      - intros (? & (x & K & ->) & ->). exists x. split; [exact K|]. now rewrite <- !app_assoc.
      - intros (x & K & ->). exists (x ++ (if c then L "," else []) ++ nl). split; [now exists x|]. now rewrite <- !app_assoc. }
    destruct l as [|o' l].
    + cbn [row_lines]. rewrite R. split.
      * intros (x & K & ->). exists [x]. split; [repeat constructor; auto; now apply K|]. destruct b; cbn [map commas concat]; rewrite ?app_nil_r; reflexivity.
      * intros (ss & K & ->). inversion K as [|? x ? ? Hx Hr]; subst. inversion Hr; subst. exists x. split; [exact Hx|].
        destruct b; cbn [map commas concat]; rewrite ?app_nil_r; reflexivity.
    + change (row_lines op d b (o :: o' :: l)) with (row_line op d true o +++ row_lines op d b (o' :: l)). rewrite clean_app. clear R.
      assert (R : forall s, clean (row_line op d true o) s <-> exists x, clean o x /\ s = indentation op (S d) ++ L "- " ++ (x ++ L ",") ++ nl).
      { intros t. unfold row_line. rewrite clean_before. setoid_rewrite clean_after. rewrite indentation_eq. split.
        - intros (? & (x & K & ->) & ->). exists x. split; [exact K|]. now rewrite <- !app_assoc.
        - intros (x & K & ->). exists (x ++ L "," ++ nl). split; [now exists x|]. now rewrite <- !app_assoc. }
      setoid_rewrite IH. setoid_rewrite R. split.
      * intros (? & ? & (x & K & ->) & (ss & Hs & ->) & ->). exists (x :: ss). split; [now constructor|]. inversion Hs; subst.
        destruct b; cbn [map commas concat]; reflexivity.
      * intros (ss & K & ->). inversion K as [|? x ? ss' Hx Hr]; subst. do 2 eexists. split; [exists x; split; [exact Hx|reflexivity]|].
        split; [exists ss'; split; [exact Hr|reflexivity]|]. inversion Hr; subst. destruct b; cbn [map commas concat]; reflexivity.
Qed.
Lemma commas_app l m : m <> [] -> commas (l ++ m) = map (fun x => x ++ L ",") l ++ commas m.
Proof.
  intros H. induction l as [|x l IH]; [reflexivity|]. cbn [app map]. rewrite <- IH. destruct (l ++ m) eqn:E; [|reflexivity].
  apply app_eq_nil in E as [_ ->]. congruence.
Qed.
Lemma long_iff op d h word rows n args out s : hd_name h = txt word -> hd_args h = Some (RaRows rows n) -> means_args (rows ++ map named_out n) args ->
  means (output_clause op h) out -> clean (header_out op d h) s <-> exists ls, long_line op d word args out ls /\ s = join nl ls.
Proof.
  intros E1 E2 H1 H2. unfold header_out, long_line. rewrite E1, E2, !indentation_eq.
  set (pre := fun x : list N => indentation op (S d) ++ L "- " ++ x).
  assert (B : forall t, clean (row_lines op d (negb (Nat.eqb (length n) 0)) rows +++ row_lines op d false (map named_out n)) t <->
      exists ss, Forall2 argument_text args ss /\ t = concat (map (fun x => pre x ++ nl) (commas ss))).
  { intros t. rewrite clean_app. setoid_rewrite row_lines_iff. setoid_rewrite <- (args_texts _ _ _ H1).
    assert (C : forall l : list (list N), concat (map (fun x => indentation op (S d) ++ L "- " ++ x ++ nl) l) = concat (map (fun x => pre x ++ nl) l)).
    { intros l. f_equal. apply map_ext. intros x. unfold pre. now rewrite <- !app_assoc. }
    assert (D : forall a b : list (list N), Forall2 clean (map named_out n) b ->
      concat (map (fun x => pre x ++ nl) (if negb (Nat.eqb (length n) 0) then map (fun x => x ++ L ",") a else commas a)) ++ concat (map (fun x => pre x ++ nl) (commas b))
      = concat (map (fun x => pre x ++ nl) (commas (a ++ b)))).
    { intros a b K. destruct n as [|p n].
      - cbn in K. inversion K; subst. cbn [length Nat.eqb negb commas map concat]. now rewrite !app_nil_r.
      - cbn [length Nat.eqb negb]. rewrite commas_app; [now rewrite map_app, concat_app|]. cbn in K. inversion K; subst. discriminate. }
    split.
    - intros (? & ? & (a & Ka & ->) & (b & Kb & ->) & ->). exists (a ++ b). split; [now apply Forall2_app|]. rewrite !C. now apply D.
    - intros (ss & K & ->). apply Forall2_app_inv_l in K as (a & b & Ka & Kb & ->). do 2 eexists.
      split; [exists a; split; [exact Ka|reflexivity]|]. split; [exists b; split; [exact Kb|reflexivity]|]. rewrite !C. symmetry. now apply D. }
  assert (J : forall ss o, join nl ((indentation op d ++ word ++ L "[") :: map pre (commas ss ++ [o ++ L "]"])) =
    indentation op d ++ word ++ L "[" ++ nl ++ concat (map (fun x => pre x ++ nl) (commas ss)) ++ pre o ++ L "]").
  { intros ss o. rewrite map_app. cbn [map]. rewrite app_comm_cons, join_last. cbn [map concat]. rewrite map_map. unfold pre. now rewrite <- !app_assoc. }
  transitivity (exists t o, clean (row_lines op d (negb (Nat.eqb (length n) 0)) rows +++ row_lines op d false (map named_out n)) t /\ out o /\
    s = indentation op d ++ word ++ L "[" ++ nl ++ t ++ pre o ++ L "]").
  - split.
    + intros H. do 3 apply clean_before in H as (? & H & ->). apply clean_after in H as (? & H & ->). apply clean_before in H as (? & H & ->).
      apply clean_app in H as (a & ? & Ka & H & ->). apply clean_app in H as (b & ? & Kb & H & ->). apply clean_before in H as (o & Ko & ->).
      exists (a ++ b), o. split; [apply clean_app; exists a, b; auto|]. split; [now apply (H2 _)|]. unfold pre, nl. change [c_nl] with [10%N]. now rewrite <- !app_assoc.
    + intros (t & o & K & Ko & ->). apply clean_app in K as (a & b & Ka & Kb & ->). apply (H2 _) in Ko.
      do 3 (apply clean_before; eexists; split; [|reflexivity]). apply clean_after. exists (nl ++ a ++ b ++ pre o). split; [|now rewrite <- !app_assoc].
      apply clean_before. eexists. split; [|reflexivity]. apply clean_app. exists a, (b ++ pre o). split; [exact Ka|]. split; [|reflexivity].
      apply clean_app. exists b, (pre o). split; [exact Kb|]. split; [|reflexivity]. apply clean_before. exists o. split; [exact Ko|]. unfold pre. now rewrite <- !app_assoc.
  - setoid_rewrite B. split.
    + intros (t & o & (ss & K & ->) & Ko & ->). eexists. split; [exists ss, o; split; [exact K|]; split; [exact Ko|reflexivity]|]. symmetry. apply J.
    + intros (ls & (ss & o & K & Ko & ->) & ->). do 2 eexists. split; [exists ss; split; [exact K|reflexivity]|]. split; [exact Ko|]. apply J.
Qed.
