(** Reading agrees with meaning: numbers, names, references, types, dates and
    times. *)
From Coq Require Import String List NArith ZArith Bool Lia.
From Verif Require Import Base BaseFacts Peg PegFacts Lines Names NamesFacts SimpleExt SimpleExtFacts Out Anchors Types TypesFacts
  Calendar CalendarFacts Literals SpecLiterals LiteralsFacts Exprs ExtArgs Registry Rels RelGrammar RelReadFacts Tree SpecMeaning.
Import ListNotations.
Local Open Scope string_scope.
Local Open Scope list_scope.
Local Open Scope nat_scope.

(** ** Outcomes *)

Lemma rbind_iff {E A B} (x : res E A) (f : A -> res E B) b : rbind x f = Ok b <-> exists a, x = Ok a /\ f a = Ok b.
Proof. split; [apply rbind_ok|]. intros (a & -> & H). exact H. Qed.
Lemma rmap_iff {E A B} (f : A -> B) (x : res E A) b : rmap f x = Ok b <-> exists a, x = Ok a /\ b = f a.
Proof. split; [apply rmap_ok|]. intros (a & -> & ->). reflexivity. Qed.
Lemma rlist_iff {E A B} (f : A -> res E B) l ys : rlist f l = Ok ys <-> Forall2 (fun x y => f x = Ok y) l ys.
Proof.
  split; [apply rlist_ok_inv|]. induction 1 as [|x y l ys H _ IH]; [reflexivity|]. cbn. rewrite H. cbn. now rewrite IH.
Qed.
Lemma guard_iff {E A} (x : res E A) a : guard_drop x = Ok a <-> x = Ok a.
Proof. split; [apply guard_drop_ok|]. now intros ->. Qed.
Lemma unwrap_iff {E A} m (o : option A) a : unwrap (E := E) m o = Ok a <-> o = Some a.
Proof. destruct o; cbn; split; congruence. Qed.
Lemma lift_missing_iff {A} m (x : res missing_ref A) a : lift_missing m x = Ok a <-> x = Ok a.
Proof. destruct x; cbn; split; congruence. Qed.
Lemma Forall2_iff {A B} (P Q : A -> B -> Prop) l m : (forall a b, P a b <-> Q a b) -> Forall2 P l m <-> Forall2 Q l m.
Proof. intros H. split; apply Forall2_imp; firstorder. Qed.
Lemma Forall2_iff_in {A B} (P Q : A -> B -> Prop) l : Forall (fun a => forall b, P a b <-> Q a b) l ->
  forall m, Forall2 P l m <-> Forall2 Q l m.
Proof.
  induction 1 as [|a l Ha _ IH]; intros m.
  - split; inversion 1; constructor.
  - split; inversion 1; subst; constructor; firstorder.
Qed.

(** ** White space *)

Lemma white_space_iff c : is_ws c = true <-> In c white_space.
Proof.
  unfold is_ws, white_space. cbn [In].
  rewrite ?orb_true_iff, ?andb_true_iff, ?N.eqb_eq, ?N.leb_le. lia.
Qed.
Lemma white_iff s : forallb is_ws s = true <-> white s.
Proof.
  unfold white. rewrite forallb_forall, Forall_forall. split; intros H c Hc; apply white_space_iff; auto.
Qed.

(** ** Numbers *)

Lemma digit_iff c : is_digit c = true <-> digit c.
Proof. unfold is_digit, digit. rewrite andb_true_iff, !N.leb_le. tauto. Qed.
Lemma digits_iff s : (s <> [] /\ forallb is_digit s = true) <-> digits s.
Proof.
  unfold digits. rewrite forallb_forall, Forall_forall. split; intros [H1 H2]; split; auto; intros c Hc; apply digit_iff; auto.
Qed.
Lemma decimal_from a s : forallb is_digit s = true ->
  fold_left (fun a c => 10 * a + (Z.of_N c - 48))%Z s (Z.of_N a) = Z.of_N (fold_left read_step s a).
Proof.
  revert a. induction s as [|c s IH]; intros a H; [reflexivity|]. cbn [forallb] in H. apply andb_true_iff in H as [Hc H].
  apply digit_iff in Hc. unfold digit in Hc. cbn [fold_left]. rewrite <- IH by auto. f_equal. unfold read_step. lia.
Qed.
Lemma decimal_digits s : forallb is_digit s = true -> decimal s = Z.of_N (read_digits s).
Proof. intros H. unfold decimal, read_digits. now rewrite <- decimal_from. Qed.
Lemma read_N_iff s n : read_N s = Some n <-> digits s /\ decimal s = Z.of_N n.
Proof.
  unfold read_N. rewrite <- digits_iff. destruct s as [|c s]; [split; [discriminate|intuition]|].
  destruct (forallb is_digit (c :: s)) eqn:E.
  - rewrite decimal_digits by auto. split; [intros [= <-]; intuition discriminate|]. intros [_ H]. f_equal. lia.
  - split; [discriminate|]. intros [[_ H] _]. discriminate.
Qed.
Lemma digits_head s : digits s -> exists c r, s = c :: r /\ digit c.
Proof. intros [H1 H2]. destruct s as [|c r]; [congruence|]. inversion H2; subst. eauto. Qed.
Lemma read_N_digits s : digits s -> option_map Z.of_N (read_N s) = Some (decimal s).
Proof.
  intros H. assert (N : (0 <= decimal s)%Z) by (rewrite decimal_digits by (now apply digits_iff); lia).
  assert (E : read_N s = Some (Z.to_N (decimal s))) by (apply read_N_iff; rewrite Z2N.id; auto). rewrite E. cbn [option_map]. now rewrite Z2N.id.
Qed.
Lemma number_iff s z : read_Z s = Some z <-> number s z.
Proof.
  unfold read_Z. destruct s as [|c r].
  - split; [discriminate|]. inversion 1; subst. destruct H0. congruence.
  - destruct (N.eqb_spec c 45) as [->|N1]; [|destruct (N.eqb_spec c 43) as [->|N2]].
    + split.
      * destruct (read_N r) as [n|] eqn:E; [|discriminate]. intros [= <-]. apply read_N_iff in E as [E <-]. now constructor.
      * inversion 1; subst.
        -- apply digits_head in H0 as (? & ? & [= <- <-] & D). unfold digit in D. lia.
        -- pose proof (read_N_digits r ltac:(assumption)) as G. destruct (read_N r); [|discriminate]. injection G as <-. reflexivity.
    + split.
      * destruct (read_N r) as [n|] eqn:E; [|discriminate]. intros [= <-]. apply read_N_iff in E as [E <-]. now constructor.
      * inversion 1; subst.
        -- apply digits_head in H0 as (? & ? & [= <- <-] & D). unfold digit in D. lia.
        -- now apply read_N_digits.
    + split.
      * destruct (read_N (c :: r)) as [n|] eqn:E; [|discriminate]. intros [= <-]. apply read_N_iff in E as [E <-]. now constructor.
      * inversion 1; subst; try congruence. now apply read_N_digits.
Qed.
Lemma in_range_iff lo hi z : in_range lo hi z = true <-> (lo <= z <= hi)%Z.
Proof. unfold in_range. lia. Qed.
Lemma parse_int_iff lo hi s z : parse_int lo hi s = Some z <-> number s z /\ (lo <= z <= hi)%Z.
Proof.
  unfold parse_int. rewrite <- number_iff, <- in_range_iff. destruct (read_Z s) as [y|]; [|split; [discriminate|intuition discriminate]].
  destruct (in_range lo hi y) eqn:E; split; try congruence; intuition congruence.
Qed.
Lemma parse_i32_iff s z : parse_i32 s = Some z <-> number s z /\ i32 z.
Proof. unfold parse_i32. rewrite parse_int_iff. unfold i32_min, i32_max, i32. intuition lia. Qed.
Lemma parse_i64_iff s z : parse_i64 s = Some z <-> number s z /\ i64 z.
Proof. unfold parse_i64. rewrite parse_int_iff. unfold i64_min, i64_max, i64. intuition lia. Qed.
Lemma parse_u32_iff s n : parse_u32 s = Some n <-> number s (Z.of_N n) /\ hd 0%N s <> 45%N /\ (Z.of_N n < 2 ^ 32)%Z.
Proof.
  unfold parse_u32, u32_max. rewrite <- number_iff. unfold read_Z. destruct s as [|c r]; [cbn; intuition discriminate|].
  cbn [hd]. destruct (N.eqb_spec c 45) as [->|N1].
  - cbn [N.eqb Pos.eqb]. change (read_N (45%N :: r)) with (@None N). split; [discriminate|]. intros (_ & H & _). congruence.
  - assert (G : forall t, match read_N t with Some n0 => if (Z.of_N n0 <=? 4294967295)%Z then Some n0 else None | None => None end = Some n <->
        option_map Z.of_N (read_N t) = Some (Z.of_N n) /\ c <> 45%N /\ (Z.of_N n < 2 ^ 32)%Z).
    { intros t. destruct (read_N t) as [m|]; [|cbn; intuition discriminate]. cbn [option_map].
      destruct (Z.leb_spec (Z.of_N m) 4294967295).
      - split; [intros [= ->]; repeat split; auto; lia|]. intros (H1 & _). f_equal. injection H1. lia.
      - split; [discriminate|]. intros (H1 & _ & H2). injection H1. lia. }
    destruct (N.eqb_spec c 43); apply G.
Qed.
Lemma anchor_iff o v : anchor_value o = Ok v <-> anchor_means o v.
Proof.
  unfold anchor_value. destruct o as [s|].
  - rewrite rmap_iff. setoid_rewrite unwrap_iff. setoid_rewrite parse_u32_iff. split.
    + intros (n & (H1 & H2 & H3) & ->). now constructor.
    + inversion 1; subst. eauto.
  - split; [intros [= <-]; constructor|]. inversion 1. reflexivity.
Qed.
Lemma field_index_iff s z : field_index s = Ok z <-> index_means s z.
Proof. unfold field_index. now rewrite unwrap_iff, parse_i32_iff. Qed.
Lemma wrap_bits z w : wrap_i32 z = w <-> same_bits z w.
Proof.
  unfold wrap_i32, same_bits, i32. split.
  - intros <-. pose proof (Z.mod_pos_bound (z + 2147483648) 4294967296 ltac:(lia)). split; [lia|].
    exists ((z + 2147483648) / 4294967296)%Z. pose proof (Z.div_mod (z + 2147483648) 4294967296 ltac:(lia)). lia.
  - intros [H (k & ->)]. replace (w + k * 2 ^ 32 + 2147483648)%Z with (w + 2147483648 + k * 4294967296)%Z by lia.
    rewrite Z.mod_add by lia. rewrite Z.mod_small; lia.
Qed.

(** ** Names and strings *)

Lemma unquoted_iff {E} q s x : q <> 92%N -> unescape_loop (E := E) q s = Ok x <-> unquoted q s x.
Proof.
  intros Hq. split.
  - revert x. induction s as [s IH] using (well_founded_induction (Wf_nat.well_founded_ltof _ (@length N))). unfold Wf_nat.ltof in IH.
    destruct s as [|c r]; cbn [unescape_loop]; intros x H; [injection H as <-; constructor|].
    destruct (N.eqb_spec c q) as [->|Nq]; [destruct r; [injection H as <-; constructor|discriminate]|].
    destruct (N.eqb_spec c c_bs) as [->|Nb].
    + destruct r as [|n r]; [discriminate|]. apply rmap_ok in H as (y & Hy & ->). apply IH in Hy; [|cbn; lia].
      change c_bs with 92%N.
      destruct (N.eqb_spec n 110) as [->|N1]; [now constructor|]. destruct (N.eqb_spec n 116) as [->|N2]; [now constructor|].
      destruct (N.eqb_spec n 114) as [->|N3]; [now constructor|]. constructor; auto. cbn [In]. intuition.
    + apply rmap_ok in H as (y & Hy & ->). apply IH in Hy; [|cbn; lia]. now apply uq_char.
  - assert (Hb : (c_bs =? q)%N = false) by (apply N.eqb_neq; unfold c_bs; congruence).
    induction 1; cbn [unescape_loop]; try change 92%N with c_bs; rewrite ?Hb, ?N.eqb_refl; try rewrite IHunquoted; try reflexivity.
    + cbn [In] in H. destruct (N.eqb_spec c 110); [exfalso; intuition|]. destruct (N.eqb_spec c 116); [exfalso; intuition|].
      destruct (N.eqb_spec c 114); [exfalso; intuition|]. reflexivity.
    + change c_bs with 92%N. apply N.eqb_neq in H, H0. rewrite H, H0. now rewrite ?IHunquoted.
Qed.
Lemma name_iff {E} c n : lower_name (E := E) c = Ok n <-> name_means c n.
Proof.
  destruct c as [s|s]; cbn [lower_name].
  - split; [intros [= <-]; constructor|]. now inversion 1.
  - unfold unescape_string. destruct s as [|x r]; [split; [discriminate|inversion 1]|]. change c_dq with 34%N.
    destruct (N.eqb_spec x 34) as [->|Hx].
    + rewrite unquoted_iff by discriminate. split; [now constructor|]. now inversion 1.
    + split; [discriminate|]. inversion 1; subst. congruence.
Qed.
Lemma string_iff {E} s x : unescape_string (E := E) c_sq s = Ok x <-> string_means s x.
Proof.
  unfold unescape_string, string_means. destruct s as [|c r]; [split; [discriminate|intros (? & ? & _); discriminate]|].
  change c_sq with 39%N. destruct (N.eqb_spec c 39) as [->|Hc].
  - rewrite unquoted_iff by discriminate. split; [eauto|]. now intros (? & [= <-] & H).
  - split; [discriminate|]. intros (? & [= -> <-] & H). congruence.
Qed.

(** ** References to declarations *)

Lemma contains_iff c s : contains_char c s = true <-> In c s.
Proof.
  induction s as [|x s IH]; cbn; [split; [discriminate|tauto]|]. rewrite orb_true_iff, IH, N.eqb_eq. intuition congruence.
Qed.
Lemma contains_not c s : contains_char c s = false <-> ~ In c s.
Proof. rewrite <- contains_iff. destruct (contains_char c s); intuition congruence. Qed.
Lemma base_iff n b : cn_base n = b <-> base_name n b.
Proof.
  unfold cn_base, base_name. destruct (split_at_char c_colon n) as [[x y]|] eqn:E.
  - apply split_at_char_spec in E as [-> E]. apply contains_not in E. split.
    + intros <-. right. eauto.
    + intros [[<- H]|(sig & H & H')].
      * exfalso. apply H. apply in_or_app. right. now left.
      * change c_colon with 58%N in *. apply contains_not in E, H'.
        pose proof (split_at_char_app 58 x y E) as S1. rewrite H in S1. rewrite split_at_char_app in S1 by auto. congruence.
  - apply split_at_char_none, contains_not in E. split; [intros <-; auto|].
    intros [[<- _]|(sig & -> & _)]; auto. exfalso. apply E. apply in_or_app. right. now left.
Qed.
Lemma called_iff n name : cn_matches n name = true <-> called n name.
Proof.
  unfold cn_matches, called. destruct (contains_char c_colon name) eqn:E.
  - apply contains_iff in E. rewrite streqb_eq. change c_colon with 58%N in E. intuition.
  - apply contains_not in E. rewrite streqb_eq, base_iff. change c_colon with 58%N in E. intuition.
Qed.
Lemma function_iff e a name r : wf_exts e -> get_and_validate_anchor e KFunction a name = Ok r <-> function_means e a name r.
Proof.
  intros W. cbn [get_and_validate_anchor]. rewrite rmap_iff. setoid_rewrite lift_missing_iff. unfold resolve_function.
  setoid_rewrite rbind_iff.
  assert (L : forall x u n, decl_get e KFunction x = Some (u, n) -> exists y, lookup_function e x = Ok y /\ rf_anchor y = x).
  { intros x u n H. rewrite (lookup_function_spec _ _ _ _ W H). eexists. split; reflexivity. }
  assert (L' : forall x y, lookup_function e x = Ok y -> rf_anchor y = x).
  { intros x y H. unfold lookup_function in H. destruct (decl_get e KFunction x) as [[u n]|] eqn:D.
    - destruct (L _ _ _ D) as (z & Hz & Ez). unfold lookup_function in Hz. congruence.
    - unfold find_by_anchor in H. rewrite D in H. discriminate. }
  destruct a as [a|].
  - unfold find_by_anchor. split.
    + intros (y & (x & Hx & Hy) & ->). apply L' in Hy as ->.
      destruct (decl_get e KFunction a) as [[u n]|] eqn:D; [|discriminate]. cbn [rbind snd] in Hx.
      destruct (cn_matches n name) eqn:M; [|discriminate]. injection Hx as <-. apply called_iff in M. now econstructor; eauto.
    + intros H. assert (a = r /\ exists u n, decl_get e KFunction r = Some (u, n) /\ called n name) as (-> & u & n & D & M)
        by (inversion H; eauto 6).
      destruct (L _ _ _ D) as (y & Hy & E). exists y. split; auto. exists r. rewrite D. cbn [rbind snd].
      apply called_iff in M. now rewrite M.
  - assert (G : forall x, (if contains_char c_colon name then find_by_name e KFunction name else find_by_base_name e KFunction name) = Ok x <->
      function_means e None name x).
    { intros x. destruct (contains_char c_colon name) eqn:C.
      - rewrite find_by_name_ok by auto. apply contains_iff in C. change c_colon with 58%N in C. split.
        + intros [(u & D) O]. econstructor; eauto.
          * left. auto.
          * intros a' u' n' D' [[_ ->]|[H _]]; [|tauto]. destruct (N.eq_dec a' x) as [|Hn]; auto. exfalso. apply O.
            exists a', u', name. rewrite streqb_refl. auto.
        + inversion_clear 1 as [|? ? u n D M U]. destruct M as [[_ ->]|[M _]]; [|tauto]. split; eauto.
          intros (a' & u' & n' & Hn & D' & Hs). apply streqb_eq in Hs as ->. apply Hn. eapply U; eauto. now left.
      - rewrite find_by_base_name_ok by auto. split.
        + intros [(u & n & D & M) O]. apply called_iff in M. econstructor; eauto. intros a' u' n' D' M'.
          destruct (N.eq_dec a' x) as [|Hn]; auto. exfalso. apply O. exists a', u', n'. apply called_iff in M'. auto.
        + inversion_clear 1 as [|? ? u n D M U]. split; [exists u, n; rewrite called_iff; auto|].
          intros (a' & u' & n' & Hn & D' & Hs). apply called_iff in Hs. apply Hn. eauto. }
    split.
    + intros (y & (x & Hx & Hy) & ->). apply L' in Hy as ->. now apply G.
    + intros H. assert (exists u n, decl_get e KFunction r = Some (u, n)) as (u & n & D) by (inversion H; eauto).
      destruct (L _ _ _ D) as (y & Hy & E). exists y. split; auto. exists r. split; auto. now apply G.
Qed.
Lemma user_type_iff e a name r : wf_exts e -> get_and_validate_anchor e KType a name = Ok r <-> user_type_means e a name r.
Proof.
  intros W. cbn [get_and_validate_anchor]. destruct a as [a|].
  - rewrite rbind_iff. setoid_rewrite lift_missing_iff. unfold find_by_anchor. split.
    + intros (x & Hx & H). destruct (decl_get e KType a) as [y|] eqn:D; [|discriminate]. injection Hx as ->. destruct x as [u n].
      cbn [snd] in H. destruct (streqb n name || streqb (cn_base n) name) eqn:M; [|discriminate]. injection H as <-.
      econstructor; eauto. apply orb_true_iff in M as [M|M]; apply streqb_eq in M; auto. right. now apply base_iff.
    + intros H. assert (a = r /\ exists u n, decl_get e KType r = Some (u, n) /\ (n = name \/ base_name n name)) as (-> & u & n & D & M)
        by (inversion H; eauto 6).
      exists (u, n). rewrite D. split; auto. cbn [snd].
      destruct M as [->|M]; [now rewrite streqb_refl|]. apply base_iff in M as ->. now rewrite streqb_refl, orb_true_r.
  - rewrite lift_missing_iff, find_by_name_ok by auto. split.
    + intros [(u & D) O]. econstructor; eauto. intros a' u' D'. destruct (N.eq_dec a' r) as [|Hn]; auto. exfalso. apply O.
      exists a', u', name. rewrite streqb_refl. auto.
    + inversion_clear 1 as [|? ? u D U]. split; eauto. intros (a' & u' & n' & Hn & D' & Hs). apply streqb_eq in Hs as ->. eauto.
Qed.

(** ** Types *)

Lemma simple_iff s k : simple_kind s = Some k <-> exists w, s = L w /\ In (w, k) type_words.
Proof.
  split.
  - unfold simple_kind. intros H. apply find_some in H as [H1 H2]. apply streqb_eq in H2 as <-.
    cbn [In] in H1.
    repeat (destruct H1 as [<-|H1]; [eexists; split; [reflexivity|cbn; tauto]|]). destruct H1.
  - intros (w & -> & H). cbn [In type_words] in H.
    repeat (destruct H as [[= <- <-]|H]; [reflexivity|]). destruct H.
Qed.
Lemma precision_iff s p : parse_precision s = Ok p <-> number s p /\ (0 <= p <= 12)%Z.
Proof.
  unfold parse_precision. destruct (parse_i32 s) as [z|] eqn:E.
  - apply parse_i32_iff in E as [E R]. destruct (in_range 0 12 z) eqn:I.
    + apply in_range_iff in I. split; [intros [= <-]; auto|]. intros [H _]. apply number_iff in H, E. congruence.
    + split; [discriminate|]. intros [H I']. apply number_iff in H, E. replace z with p in * by congruence. apply in_range_iff in I'. congruence.
  - split; [discriminate|]. intros [H I]. assert (G : parse_i32 s = Some p) by (apply parse_i32_iff; split; auto; unfold i32; lia). congruence.
Qed.
Lemma params_loop_iff {A B} (f : A -> pres B) l ys : params_loop f l = Ok ys <-> Forall2 (fun x y => f x = Ok y) l ys.
Proof. split; [apply params_loop_inv|apply params_loop_ok]. Qed.
Lemma type_iff e : wf_exts e -> forall c t, lower_type e c = Ok t <-> type_means e c t.
Proof.
  intros W.
  apply (tcst_ind2 (fun c => forall t, lower_type e c = Ok t <-> type_means e c t)
                   (fun c => forall p, lower_param e c = Ok p <-> param_means e c p)).
  - intros s n t. cbn [lower_type]. destruct (simple_kind s) as [k|] eqn:E.
    + pose proof E as E0. apply simple_iff in E as (w & -> & Hw). split; [intros [= <-]; now constructor|].
      inversion 1; subst. assert (simple_kind (L w) = Some k0) by (apply simple_iff; eexists; split; [symmetry; eassumption|auto]). congruence.
    + split; [discriminate|]. inversion 1; subst. assert (simple_kind (L w) = Some k) by (apply simple_iff; eauto). congruence.
  - intros n c IH t. cbn [lower_type]. rewrite rmap_iff. split.
    + intros (t' & H & ->). constructor. now apply IH.
    + inversion 1; subst. eexists. rewrite IH. eauto.
  - intros. cbn [lower_type]. split; [discriminate|inversion 1].
  - intros. cbn [lower_type]. split; [discriminate|inversion 1].
  - intros k n p t. cbn [lower_type]. rewrite rmap_iff. setoid_rewrite precision_iff. split.
    + intros (z & [H1 H2] & ->). now constructor.
    + inversion 1; subst. eauto.
  - intros n p t. cbn [lower_type]. rewrite rmap_iff. setoid_rewrite precision_iff. split.
    + intros (z & [H1 H2] & ->). now constructor.
    + inversion 1; subst. eauto.
  - intros name a u n ps IH t. cbn [lower_type]. repeat setoid_rewrite rbind_iff. repeat setoid_rewrite anchor_iff. split.
    + intros (a' & Ha & u' & Hu & ts & Hp & r & Hr & [= <-]). apply user_type_iff in Hr; auto. destruct ps as [l|].
      * apply params_loop_iff in Hp. econstructor; eauto. rewrite <- Forall2_iff_in; eauto.
      * injection Hp as <-. econstructor; eauto.
    + inversion 1; subst.
      * exists a'. split; auto. exists u'. split; auto. exists []. split; auto. exists r. split; auto. now apply user_type_iff.
      * exists a'. split; auto. exists u'. split; auto. exists ps0. split; [|exists r; split; auto; now apply user_type_iff].
        apply params_loop_iff. rewrite Forall2_iff_in; eauto.
  - intros c IH p. cbn [lower_param]. rewrite rmap_iff. split.
    + intros (t & H & ->). constructor. now apply IH.
    + inversion 1; subst. eexists. rewrite IH. eauto.
  - intros. cbn. split; [discriminate|inversion 1].
  - intros. cbn. split; [discriminate|inversion 1].
Qed.
