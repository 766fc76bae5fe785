(** Facts about Base.v. *)
From Coq Require Import Ascii String List NArith ZArith Bool Lia ZifyN ZifyNat ZifyBool.
From Verif Require Import Base.
Import ListNotations.

Ltac bool_hyps :=
  repeat match goal with
         | H : _ && _ = true |- _ => apply andb_true_iff in H; destruct H
         | H : negb _ = true |- _ => apply negb_true_iff in H
         | H : _ || _ = false |- _ => apply orb_false_iff in H; destruct H
         end.

(** Arithmetic on character classes. *)
Ltac chars :=
  unfold is_idchar, is_alnum, is_alpha, is_upper, is_lower, is_digit,
    c_under, c_nl, c_cr, c_tab, c_sp, c_dq, c_sq, c_bs in *; lia.

Lemma streqb_refl s : streqb s s = true.
Proof. induction s; cbn; auto. now rewrite N.eqb_refl. Qed.

Lemma streqb_eq a b : streqb a b = true <-> a = b.
Proof.
  split; [|intros ->; apply streqb_refl].
  revert b; induction a as [|x a IH]; intros [|y b]; cbn; try discriminate; auto.
  intros H; bool_hyps. apply N.eqb_eq in H. f_equal; auto.
Qed.

Lemma streqb_neq a b : streqb a b = false <-> a <> b.
Proof.
  rewrite <- streqb_eq. destruct (streqb a b); split; congruence.
Qed.

Lemma streqb_sym a b : streqb a b = streqb b a.
Proof.
  destruct (streqb a b) eqn:E.
  - apply streqb_eq in E; subst; now rewrite streqb_refl.
  - symmetry; apply streqb_neq. apply streqb_neq in E. congruence.
Qed.

(** ** span *)

Lemma span_app f a r :
  forallb f a = true -> hd_not f r = true -> span f (a ++ r) = (a, r).
Proof.
  induction a as [|c a IH]; intros Ha Hr.
  - destruct r as [|c r]; cbn in *; auto. apply negb_true_iff in Hr. now rewrite Hr.
  - cbn [forallb] in Ha; bool_hyps. cbn [app span]. rewrite H, IH; auto.
Qed.

Lemma span_spec f s a r :
  span f s = (a, r) -> s = a ++ r /\ forallb f a = true /\ hd_not f r = true.
Proof.
  revert a r; induction s as [|c s IH]; intros a r; cbn.
  - intros [= <- <-]; auto.
  - destruct (f c) eqn:Ec.
    + destruct (span f s) as [x y] eqn:E. intros [= <- <-].
      destruct (IH _ _ eq_refl) as (-> & H1 & H2). cbn. now rewrite Ec.
    + intros [= <- <-]. cbn. now rewrite Ec.
Qed.

(** ** strip_prefix *)

Lemma strip_prefix_app p s : strip_prefix p (p ++ s) = Some s.
Proof. induction p; cbn; auto. now rewrite N.eqb_refl. Qed.

Lemma strip_prefix_spec p s r : strip_prefix p s = Some r <-> s = p ++ r.
Proof.
  split; [|intros ->; apply strip_prefix_app].
  revert s; induction p as [|x p IH]; intros s; cbn.
  - now intros [= ->].
  - destruct s as [|y s]; [discriminate|]. destruct (x =? y)%N eqn:E; [|discriminate].
    apply N.eqb_eq in E; subst. intros H. now rewrite (IH _ H).
Qed.

(** ** split_at_char *)

Lemma split_at_char_app c a b :
  contains_char c a = false -> split_at_char c (a ++ c :: b) = Some (a, b).
Proof.
  induction a as [|x a IH]; cbn; intros H.
  - now rewrite N.eqb_refl.
  - apply orb_false_iff in H as [H1 H2]. rewrite H1, IH; auto.
Qed.

Lemma split_at_char_none c s : contains_char c s = false <-> split_at_char c s = None.
Proof.
  induction s as [|x s IH]; cbn; [tauto|].
  destruct (x =? c)%N eqn:E; cbn; [split; discriminate|].
  rewrite IH. destruct (split_at_char c s) as [[? ?]|]; split; congruence.
Qed.

Lemma split_at_char_spec c s a b :
  split_at_char c s = Some (a, b) -> s = a ++ c :: b /\ contains_char c a = false.
Proof.
  revert a b; induction s as [|x s IH]; cbn; intros a b; [discriminate|].
  destruct (x =? c)%N eqn:E.
  - apply N.eqb_eq in E; intros [= <- <-]; subst; auto.
  - destruct (split_at_char c s) as [[u v]|] eqn:Es; [|discriminate].
    intros [= <- <-]. destruct (IH _ _ eq_refl) as [-> H]. cbn. now rewrite E, H.
Qed.

Lemma contains_char_app c a b :
  contains_char c (a ++ b) = contains_char c a || contains_char c b.
Proof. induction a; cbn; auto. now rewrite IHa, orb_assoc. Qed.

Lemma contains_char_class f c s :
  forallb f s = true -> f c = false -> contains_char c s = false.
Proof.
  induction s as [|x s IH]; cbn; auto. intros H Hc; bool_hyps.
  rewrite IH; auto. destruct (N.eqb_spec x c); subst; auto; congruence.
Qed.

(** ** Decimal *)

Lemma read_fold_app a s t : fold_left read_step (s ++ t) a = fold_left read_step t (fold_left read_step s a).
Proof. apply fold_left_app. Qed.

Lemma digs_spec f n acc :
  (n < 10 ^ N.of_nat (S f))%N ->
  exists d, digs (S f) n acc = d ++ acc /\ forallb is_digit d = true /\ d <> [] /\
            read_digits d = n.
Proof.
  revert n acc; induction f as [|f IH]; intros n acc Hn.
  - cbn in Hn. cbn [digs]. destruct (N.ltb_spec n 10) as [_|?]; [|lia].
    rewrite N.mod_small by lia.
    exists [(48 + n)%N]. repeat split; try discriminate.
    + cbn [forallb]. rewrite andb_true_r. chars.
    + unfold read_digits; cbn [fold_left]. unfold read_step. lia.
  - change (digs (S (S f)) n acc) with
      (let acc' := (48 + n mod 10)%N :: acc in if (n <? 10)%N then acc' else digs (S f) (n / 10)%N acc').
    cbn zeta. destruct (N.ltb_spec n 10).
    + rewrite N.mod_small by lia. exists [(48 + n)%N]. repeat split; try discriminate.
      * cbn [forallb]. rewrite andb_true_r. chars.
      * unfold read_digits; cbn [fold_left]. unfold read_step. lia.
    + destruct (IH (n / 10)%N ((48 + n mod 10)%N :: acc)) as (d & E & Hd & Hne & Hr).
      { rewrite Nat2N.inj_succ, N.pow_succ_r' in Hn.
        apply N.div_lt_upper_bound; lia. }
      exists (d ++ [(48 + n mod 10)%N]). rewrite <- app_assoc. split; [exact E|].
      pose proof (N.mod_lt n 10 ltac:(lia)).
      repeat split.
      * rewrite forallb_app, Hd. cbn [forallb andb]. rewrite andb_true_r. chars.
      * now destruct d.
      * unfold read_digits in *. rewrite read_fold_app, Hr. cbn [fold_left]. unfold read_step.
        pose proof (N.div_mod n 10 ltac:(lia)). lia.
Qed.

Lemma size_bound n : (n < 10 ^ N.of_nat (S (N.size_nat n)))%N.
Proof.
  destruct n as [|p]; [cbn; lia|].
  assert (H : (N.pos p < 2 ^ N.size (N.pos p))%N) by apply N.size_gt.
  assert (E : N.of_nat (N.size_nat (N.pos p)) = N.size (N.pos p)).
  { cbn. clear H. induction p; cbn; try rewrite <- IHp; lia. }
  rewrite Nat2N.inj_succ, E, N.pow_succ_r'.
  assert (2 ^ N.size (N.pos p) <= 10 ^ N.size (N.pos p))%N by (apply N.pow_le_mono_l; lia).
  lia.
Qed.

Lemma show_N_spec n :
  forallb is_digit (show_N n) = true /\ show_N n <> [] /\ read_digits (show_N n) = n.
Proof.
  unfold show_N. destruct (digs_spec (N.size_nat n) n [] (size_bound n)) as (d & E & H).
  rewrite E, app_nil_r. exact H.
Qed.

Lemma show_N_digits n : forallb is_digit (show_N n) = true.
Proof. apply show_N_spec. Qed.
Lemma show_N_nonempty n : show_N n <> [].
Proof. apply show_N_spec. Qed.

Lemma read_show_N n : read_N (show_N n) = Some n.
Proof.
  destruct (show_N_spec n) as (H1 & H2 & H3). unfold read_N.
  destruct (show_N n) eqn:E; [congruence|]. now rewrite H1, H3.
Qed.

Lemma show_N_inj m n : show_N m = show_N n -> m = n.
Proof. intros H. apply (f_equal read_N) in H. rewrite !read_show_N in H. congruence. Qed.

Lemma show_N_head n : exists c r, show_N n = c :: r /\ is_digit c = true.
Proof.
  destruct (show_N_spec n) as (H1 & H2 & _). destruct (show_N n) as [|c r]; [congruence|].
  cbn in H1; bool_hyps; eauto.
Qed.

Lemma read_show_Z z : read_Z (show_Z z) = Some z.
Proof.
  unfold show_Z. destruct (Z.ltb_spec z 0).
  - unfold read_Z. rewrite N.eqb_refl, read_show_N. cbn. f_equal. lia.
  - destruct (show_N_head (Z.abs_N z)) as (c & r & E & Hc).
    unfold read_Z. rewrite E.
    destruct (N.eqb_spec c 45); [subst; discriminate|].
    destruct (N.eqb_spec c 43); [subst; discriminate|].
    rewrite <- E, read_show_N. cbn. f_equal. lia.
Qed.

Lemma show_Z_inj m n : show_Z m = show_Z n -> m = n.
Proof. intros H. apply (f_equal read_Z) in H. rewrite !read_show_Z in H. congruence. Qed.

Lemma parse_int_show lo hi z : in_range lo hi z = true -> parse_int lo hi (show_Z z) = Some z.
Proof. intros H. unfold parse_int. now rewrite read_show_Z, H. Qed.

Lemma parse_i32_show z : in_range i32_min i32_max z = true -> parse_i32 (show_Z z) = Some z.
Proof. apply parse_int_show. Qed.
Lemma parse_i64_show z : in_range i64_min i64_max z = true -> parse_i64 (show_Z z) = Some z.
Proof. apply parse_int_show. Qed.

Lemma parse_u32_show n : (Z.of_N n <=? u32_max)%Z = true -> parse_u32 (show_N n) = Some n.
Proof.
  intros H. unfold parse_u32.
  destruct (show_N_head n) as (c & r & E & Hc). rewrite E.
  destruct (N.eqb_spec c 43); [subst; discriminate|].
  now rewrite <- E, read_show_N, H.
Qed.

Lemma wrap_i32_id z : in_range i32_min i32_max z = true -> wrap_i32 z = z.
Proof.
  unfold in_range, i32_min, i32_max, wrap_i32. intros H; bool_hyps.
  rewrite Z.mod_small; lia.
Qed.

Lemma wrap_i32_range z : in_range i32_min i32_max (wrap_i32 z) = true.
Proof.
  unfold in_range, i32_min, i32_max, wrap_i32.
  pose proof (Z.mod_pos_bound (z + 2147483648) 4294967296 ltac:(lia)). lia.
Qed.

(** ** Outcomes *)

Lemma rlist_ok {E A B} (f : A -> res E B) (g : A -> B) l :
  Forall (fun x => f x = Ok (g x)) l -> rlist f l = Ok (map g l).
Proof. induction 1; cbn; auto. rewrite H. cbn. now rewrite IHForall. Qed.

Lemma rlist_ok_inv {E A B} (f : A -> res E B) l ys :
  rlist f l = Ok ys -> Forall2 (fun x y => f x = Ok y) l ys.
Proof.
  revert ys; induction l as [|x l IH]; cbn; intros ys.
  - intros [= <-]; constructor.
  - destruct (f x) eqn:E1; cbn; try discriminate.
    destruct (rlist f l) eqn:E2; cbn; try discriminate.
    intros [= <-]. constructor; auto.
Qed.

Lemma rbind_ok {E A B} (x : res E A) (f : A -> res E B) b :
  rbind x f = Ok b -> exists a, x = Ok a /\ f a = Ok b.
Proof. destruct x; cbn; try discriminate. eauto. Qed.
Lemma rmap_ok {E A B} (f : A -> B) (x : res E A) b :
  rmap f x = Ok b -> exists a, x = Ok a /\ b = f a.
Proof. destruct x; cbn; try discriminate. intros [= <-]. eauto. Qed.
