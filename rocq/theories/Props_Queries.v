(** C49, C50: what a registry lists, and columns as schemas. *)
From Coq Require Import String List NArith ZArith Bool Lia Sorted.
From Verif Require Import Base BaseFacts Utf8 SimpleExt Out Types Literals Exprs ExtArgs Registry SpecRegistry Props_Registry RegistryNames.
Import ListNotations.
Local Open Scope list_scope.
Local Open Scope N_scope.

(** ** The order of strings *)

(** Lexicographic order of the characters. *)
Inductive text_lt : list N -> list N -> Prop :=
| tl_prefix p c t : text_lt p (p ++ c :: t)
| tl_char p c d s t : c < d -> text_lt (p ++ c :: s) (p ++ d :: t).

Lemma bytes_leb_refl a : bytes_leb a a = true.
Proof. induction a as [|x a IH]; cbn [bytes_leb]; auto. now rewrite N.eqb_refl. Qed.
Lemma bytes_leb_antisym a : forall b, bytes_leb a b = true -> bytes_leb b a = true -> a = b.
Proof.
  induction a as [|x a IH]; intros [|y b] H H'; cbn [bytes_leb] in *; try discriminate; [reflexivity|].
  destruct (N.eqb_spec x y) as [->|C].
  - rewrite N.eqb_refl in H'. f_equal. auto.
  - destruct (N.eqb_spec y x) as [->|_]; [congruence|]. apply N.ltb_lt in H. apply N.ltb_lt in H'. lia.
Qed.
Lemma bytes_leb_total a : forall b, bytes_leb a b = false -> bytes_leb b a = true.
Proof.
  induction a as [|x a IH]; intros [|y b] H; cbn [bytes_leb] in *; try discriminate; [reflexivity|].
  rewrite N.eqb_sym. destruct (N.eqb_spec x y) as [->|C]; auto. apply N.ltb_ge in H. apply N.ltb_lt. lia.
Qed.
Lemma bytes_leb_trans a : forall b c, bytes_leb a b = true -> bytes_leb b c = true -> bytes_leb a c = true.
Proof.
  induction a as [|x a IH]; intros [|y b] [|z c] H H'; cbn [bytes_leb] in *; try discriminate; auto.
  destruct (N.eqb_spec x y) as [->|C]; [destruct (N.eqb_spec y z); eauto|]. apply N.ltb_lt in H.
  destruct (N.eqb_spec y z) as [->|C'].
  - destruct (N.eqb_spec x z); [lia|]. now apply N.ltb_lt.
  - apply N.ltb_lt in H'. destruct (N.eqb_spec x z); [lia|]. apply N.ltb_lt. lia.
Qed.
Lemma bytes_leb_app p a b : bytes_leb (p ++ a) (p ++ b) = bytes_leb a b.
Proof. induction p as [|x p IH]; cbn [app bytes_leb]; auto. now rewrite N.eqb_refl. Qed.

Definition below (a b : list N) : Prop := forall s t, bytes_leb (a ++ s) (b ++ t) = true /\ bytes_leb (b ++ t) (a ++ s) = false.
Lemma below_head x y a b : x < y -> below (x :: a) (y :: b).
Proof.
  intros H s t. cbn [app bytes_leb]. destruct (N.eqb_spec x y); [lia|]. destruct (N.eqb_spec y x); [lia|]. split; [apply N.ltb_lt|apply N.ltb_ge]; lia.
Qed.
Lemma below_tail x a b : below a b -> below (x :: a) (x :: b).
Proof. intros H s t. cbn [app bytes_leb]. rewrite N.eqb_refl. apply H. Qed.
Lemma below_digits x y a b : x < y \/ x = y /\ below a b -> below (x :: a) (y :: b).
Proof. intros [H|[-> H]]; [now apply below_head|now apply below_tail]. Qed.
(** UTF-8 keeps the order of characters. *)
Lemma utf8_below c d : c < d -> scalar d = true -> below (utf8_char c) (utf8_char d).
Proof.
  intros H Hd.
  assert (Hb : d < 1114112). { unfold scalar in Hd. apply orb_true_iff in Hd as [Hd|Hd]; nbool; lia. }
  pose proof (split64 c) as E1. pose proof (split64 (c / 64)) as E2. pose proof (split64 (c / 64 / 64)) as E3.
  pose proof (split64 d) as D1. pose proof (split64 (d / 64)) as D2. pose proof (split64 (d / 64 / 64)) as D3.
  rewrite !N.div_div in * by lia. change (64 * 64) with 4096 in *. change (4096 * 64) with 262144 in *.
  pose proof (mod64 c). pose proof (mod64 (c / 64)). pose proof (mod64 (c / 4096)).
  pose proof (mod64 d). pose proof (mod64 (d / 64)). pose proof (mod64 (d / 4096)).
  pose proof (N.le_0_l (c / 64)). pose proof (N.le_0_l (c / 4096)). pose proof (N.le_0_l (c / 262144)).
  pose proof (N.le_0_l (d / 64)). pose proof (N.le_0_l (d / 4096)). pose proof (N.le_0_l (d / 262144)).
  remember (c / 64) as c1. remember (c / 4096) as c2. remember (c / 262144) as c3.
  remember (d / 64) as d1. remember (d / 4096) as d2. remember (d / 262144) as d3.
  remember (c mod 64) as m0. remember (c1 mod 64) as m1. remember (c2 mod 64) as m2.
  remember (d mod 64) as n0. remember (d1 mod 64) as n1. remember (d2 mod 64) as n2.
  clear Heqc1 Heqc2 Heqc3 Heqd1 Heqd2 Heqd3 Heqm0 Heqm1 Heqm2 Heqn0 Heqn1 Heqn2.
  unfold utf8_char.
  destruct (c <? 128) eqn:C1; [|destruct (c <? 2048) eqn:C2; [|destruct (c <? 65536) eqn:C3]];
  (destruct (d <? 128) eqn:K1; [|destruct (d <? 2048) eqn:K2; [|destruct (d <? 65536) eqn:K3]]); nbool; try lia; try (apply below_head; lia).
  - apply below_digits. destruct (N.eq_dec c1 d1); [right|left; lia]. split; [lia|]. apply below_head. lia.
  - apply below_digits. destruct (N.eq_dec c2 d2); [right|left; lia]. split; [lia|].
    apply below_digits. destruct (N.eq_dec m1 n1); [right|left; lia]. split; [lia|]. apply below_head. lia.
  - apply below_digits. destruct (N.eq_dec c3 d3); [right|left; lia]. split; [lia|].
    apply below_digits. destruct (N.eq_dec m2 n2); [right|left; lia]. split; [lia|].
    apply below_digits. destruct (N.eq_dec m1 n1); [right|left; lia]. split; [lia|]. apply below_head. lia.
Qed.
Definition text (s : list N) : Prop := Forall (fun c => scalar c = true) s.
Lemma utf8_char_nonempty c : exists x l, utf8_char c = x :: l.
Proof. unfold utf8_char. destruct (c <? 128); [eauto|]. destruct (c <? 2048); [eauto|]. destruct (c <? 65536); eauto. Qed.
Lemma str_leb_text a : forall b, text a -> text b -> str_leb a b = true -> a = b \/ text_lt a b.
Proof.
  unfold str_leb, utf8_encode. induction a as [|c a IH]; intros b Ha Hb H.
  - destruct b as [|d b]; [now left|]. right. apply (tl_prefix []).
  - destruct b as [|d b]; cbn [map concat] in H.
    + destruct (utf8_char_nonempty c) as (x & l & E). rewrite E in H. discriminate.
    + inversion Ha; inversion Hb; subst. destruct (N.lt_trichotomy c d) as [C|[->|C]].
      * right. now apply (tl_char []).
      * rewrite bytes_leb_app in H. destruct (IH b) as [->|L]; auto. right. destruct L as [p e t|p e f s t Hef]; [apply (tl_prefix (d :: p))|now apply (tl_char (d :: p))].
      * destruct (utf8_below d c C ltac:(assumption) (concat (map utf8_char b)) (concat (map utf8_char a))) as [_ E]. congruence.
Qed.
Lemma str_leb_antisym a b : text a -> text b -> str_leb a b = true -> str_leb b a = true -> a = b.
Proof.
  intros Ha Hb H H'. assert (E : utf8_encode a = utf8_encode b) by now apply bytes_leb_antisym.
  assert (Some a = Some b) by (rewrite <- (utf8_decode_encode a Ha), <- (utf8_decode_encode b Hb); congruence). congruence.
Qed.

(** ** Sorting *)
Definition str_le (a b : list N) : Prop := str_leb a b = true.
Lemma sorted_insert_in x l y : In y (sorted_insert x l) <-> y = x \/ In y l.
Proof.
  induction l as [|z l IH]; cbn [sorted_insert]; [cbn; intuition|]. destruct (str_leb x z); cbn [In]; [intuition|]. rewrite IH. tauto.
Qed.
Lemma str_sort_in l y : In y (str_sort l) <-> In y l.
Proof. induction l as [|x l IH]; [reflexivity|]. cbn [str_sort fold_right]. rewrite sorted_insert_in. cbn. unfold str_sort in IH. rewrite IH. intuition. Qed.
Lemma sorted_insert_sorted x l : StronglySorted str_le l -> StronglySorted str_le (sorted_insert x l).
Proof.
  induction 1 as [|y l Hs IH Hf]; cbn [sorted_insert]; [repeat constructor|]. destruct (str_leb x y) eqn:E.
  - constructor; [now constructor|]. constructor; [exact E|]. apply Forall_impl with (2 := Hf). intros z Hz. eapply bytes_leb_trans; eauto.
  - constructor; [exact IH|]. apply Forall_forall. intros z Hz. apply sorted_insert_in in Hz as [->|Hz].
    + now apply bytes_leb_total.
    + now apply (proj1 (Forall_forall _ _) Hf).
Qed.
Lemma str_sort_sorted l : StronglySorted str_le (str_sort l).
Proof. induction l as [|x l IH]; [constructor|]. cbn [str_sort fold_right]. now apply sorted_insert_sorted. Qed.
Lemma dedup_cons x y l : dedup (x :: y :: l) = if streqb x y then dedup (y :: l) else x :: dedup (y :: l).
Proof. reflexivity. Qed.
Lemma dedup_in l y : In y (dedup l) <-> In y l.
Proof.
  induction l as [|x [|z l] IH]; [reflexivity|reflexivity|]. rewrite dedup_cons. destruct (streqb x z) eqn:E.
  - apply streqb_eq in E. subst z. rewrite IH. cbn. intuition.
  - cbn [In] in *. rewrite IH. tauto.
Qed.
Lemma dedup_sorted l : Forall text l -> StronglySorted str_le l -> StronglySorted text_lt (dedup l).
Proof.
  intros Ht H. induction H as [|x l Hs IH Hf]; [constructor|]. inversion Ht as [|? ? Hx Hl]; subst. specialize (IH Hl).
  destruct l as [|z l]; [repeat constructor|]. rewrite dedup_cons. destruct (streqb x z) eqn:E; [exact IH|].
  constructor; [exact IH|]. apply Forall_forall. intros y Hy. apply (proj1 (dedup_in _ _)) in Hy.
  rewrite Forall_forall in Hl, Hf. inversion Hs as [|? ? Hs' Hz]; subst. rewrite Forall_forall in Hz.
  destruct (str_leb_text x y Hx (Hl y Hy) (Hf y Hy)) as [->|L]; [|exact L].
  exfalso. assert (y = z) as ->; [|now rewrite streqb_refl in E].
  destruct Hy as [->|Hy]; [reflexivity|].
  apply str_leb_antisym; [exact Hx|apply Hl; now left|apply Hf; now left|now apply Hz].
Qed.

(** ** C49 *)

Lemma hput_keys {V} k (v : V) m : NoDup (map fst m) -> NoDup (map fst (hput k v m)) /\ (forall x, In x (map fst (hput k v m)) -> x = k \/ In x (map fst m)).
Proof.
  induction m as [|[k' v'] m IH]; cbn [hput map fst]; intros H; [split; [repeat constructor; auto|cbn; intuition]|].
  inversion H as [|? ? Hn Hd]; subst. destruct (rkey_eqb k k') eqn:E; cbn [map fst].
  - split; [now constructor|]. cbn. intuition.
  - destruct (IH Hd) as [A B]. split; [constructor; auto|].
    + intros Hi. apply B in Hi as [->|Hi]; [now rewrite rkey_eqb_refl in E|contradiction].
    + cbn. intros x [->|Hx]; auto. destruct (B _ Hx); auto.
Qed.
Lemma hget_in {V} k (v : V) m : NoDup (map fst m) -> (hget k m = Some v <-> In (k, v) m).
Proof.
  induction m as [|[k' v'] m IH]; cbn [hget map fst In]; intros H; [split; [discriminate|tauto]|]. inversion H as [|? ? Hn Hd]; subst.
  destruct (rkey_eqb k k') eqn:E.
  - apply rkey_eqb_eq in E. subst k'. split; [intros [= ->]; auto|]. intros [[= ->]|Hi]; auto. exfalso. apply Hn. apply in_map with (f := fst) in Hi. exact Hi.
  - rewrite IH by exact Hd. split; auto. intros [[= -> ->]|Hi]; auto. now rewrite rkey_eqb_refl in E.
Qed.
Lemma run_regs_keys l : NoDup (map fst (rg_urls (run_regs l))).
Proof.
  induction l as [|[t h] l IH] using rev_ind; [constructor|]. unfold run_regs in *. rewrite fold_left_app. cbn [fold_left fst snd].
  remember (fold_left _ l registry_new) as r. unfold register. destruct (hget (t, xe_name h) (rg_handlers r)); [exact IH|].
  destruct (hget (t, xe_url h) (rg_urls r)) as [n|]; [destruct (streqb n (xe_name h)); [|exact IH]|]; cbn [snd rg_urls]; now apply hput_keys.
Qed.

(** The names listed are those of the registrations that count, each once, in
    alphabetical order. *)
Theorem C49_extension_names : forall l k t, accepts l k -> (forall th, In th k -> text (xe_name (snd th))) ->
  (forall n, In n (extension_names (run_regs l) t) <-> exists h, In (t, h) k /\ xe_name h = n) /\
  StronglySorted text_lt (extension_names (run_regs l) t).
Proof.
  intros l k t Ha Ht. destruct (run_regs_holds l) as (k' & Ha' & Hh & Hu). rewrite (accepts_fun _ _ _ Ha' Ha) in *. clear k' Ha'.
  pose proof (run_regs_keys l) as Hd.
  assert (Huniq : forall h h', In (t, h) k -> In (t, h') k -> xe_url h = xe_url h' -> h = h').
  { clear - Ha. induction Ha as [|l k th Ha IH Hn|]; intros h h' H1 H2 E; auto; [contradiction|].
    apply in_app_iff in H1, H2. destruct H1 as [H1|[H1|[]]], H2 as [H2|[H2|[]]]; auto; try subst th.
    - exfalso. apply (proj2 (Hn _ H1)). split; cbn; auto.
    - exfalso. apply (proj2 (Hn _ H2)). split; cbn; auto.
    - congruence. }
  assert (Hin : forall n, In n (map snd (filter (fun kv => xtype_eqb (fst (fst kv)) t) (rg_urls (run_regs l)))) <-> exists h, In (t, h) k /\ xe_name h = n).
  { intros n. rewrite in_map_iff. split.
    - intros ([[t' u] n'] & <- & Hi). apply filter_In in Hi as [Hi E]. cbn [fst snd] in *. apply xtype_eqb_eq in E. subst t'.
      apply hget_in in Hi; [|exact Hd]. rewrite Hu in Hi. destruct (find _ k) as [[t2 h]|] eqn:E; [|discriminate]. apply find_some in E as [E1 E2].
      apply rkey_eqb_eq in E2. cbn [fst snd option_map] in *. injection E2 as <- _. injection Hi as <-. eauto.
    - intros (h & Hk & <-). exists ((t, xe_url h), xe_name h). split; [reflexivity|]. apply filter_In. split; [|now apply xtype_eqb_eq].
      apply hget_in; [exact Hd|]. rewrite Hu. destruct (find _ k) as [[t2 h2]|] eqn:E; cbn [option_map snd].
      + apply find_some in E as [E1 E2]. apply rkey_eqb_eq in E2. cbn [fst snd] in E2. injection E2 as <- E2. now rewrite (Huniq h h2 Hk E1 E2).
      + rewrite find_none_iff in E. specialize (E _ Hk). cbn [fst snd] in E. now rewrite rkey_eqb_refl in E. }
  unfold extension_names. split.
  - intros n. now rewrite dedup_in, str_sort_in, Hin.
  - apply dedup_sorted; [|apply str_sort_sorted]. apply Forall_forall. intros n Hn. apply str_sort_in, Hin in Hn as (h & Hk & <-). now apply (Ht _ Hk).
Qed.

(** ** C50 *)

(** The schema of columns: their names and types, not nullable. *)
Theorem C50_schema : forall cols s, columns_to_struct cols = Ok s <->
  exists nts, cols = map (fun nt => XNamed (fst nt) (snd nt)) nts /\
    s = mk_named_struct (map fst nts) (Some (map snd nts, 0, NRequired)).
Proof.
  assert (G : forall cols ns ts, columns_names cols = Ok (ns, ts) <->
    exists nts, cols = map (fun nt => XNamed (fst nt) (snd nt)) nts /\ ns = map fst nts /\ ts = map snd nts).
  { induction cols as [|[n t|x] cols IH]; intros ns ts; cbn [columns_names].
    - split; [intros [= <- <-]; now exists []|]. intros ([|] & E & -> & ->); [reflexivity|discriminate].
    - split.
      + intros H. apply rbind_ok in H as ([ns' ts'] & H & E). injection E as <- <-. apply IH in H as (nts & -> & -> & ->). now exists ((n, t) :: nts).
      + intros ([|[n' t'] nts] & E & -> & ->); [discriminate|]. cbn [map fst snd] in *. injection E as <- <- ->.
        rewrite (proj2 (IH (map fst nts) (map snd nts))) by eauto. reflexivity.
    - split; [discriminate|]. intros ([|] & E & _); discriminate. }
  intros cols s. unfold columns_to_struct. split.
  - intros H. apply rbind_ok in H as ([ns ts] & H & E). injection E as <-. apply G in H as (nts & -> & -> & ->). eauto.
  - intros (nts & -> & ->). rewrite (proj2 (G _ (map fst nts) (map snd nts))) by eauto. reflexivity.
Qed.
(** Columns survive as a schema, and a schema as columns, when it has a type for each
    name and is a required struct, as every schema in a plan is to be. *)
Theorem C50_columns_back : forall cols s, columns_to_struct cols = Ok s -> struct_to_columns s = Ok cols.
Proof.
  intros cols s H. apply C50_schema in H as (nts & -> & ->). unfold struct_to_columns. cbn [ns_struct ns_names]. rewrite !map_length, Nat.eqb_refl.
  f_equal. induction nts as [|[n t] nts IH]; cbn [map combine fst snd]; [reflexivity|]. now f_equal.
Qed.
Theorem C50_schema_back : forall s cols, struct_to_columns s = Ok cols ->
  columns_to_struct cols = Ok s <-> exists ts, ns_struct s = Some (ts, 0, NRequired).
Proof.
  intros [ns st] cols H. unfold struct_to_columns in H. cbn [ns_struct ns_names] in *.
  destruct (Nat.eqb_spec (length ns) (length (match st with Some (t, _, _) => t | None => [] end))) as [E|]; [|discriminate]. injection H as <-.
  split.
  - intros H. apply C50_schema in H as (nts & _ & E'). injection E' as _ ->. eauto.
  - intros (ts & ->). apply C50_schema. exists (combine ns ts). split; [reflexivity|].
    assert (map fst (combine ns ts) = ns /\ map snd (combine ns ts) = ts) as [-> ->]; [|reflexivity].
    revert ts E. induction ns as [|n ns IH]; intros [|t ts] E; try discriminate; cbn [combine map fst snd] in *; [auto|].
    injection E as E. destruct (IH ts E) as [-> ->]. auto.
Qed.
(** A schema with as many names as types can be written; otherwise an error says so. *)
Theorem C50_schema_columns : forall ns ts v u,
  (exists cols, struct_to_columns (mk_named_struct ns (Some (ts, v, u))) = Ok cols) <-> length ns = length ts.
Proof.
  intros ns ts v u. unfold struct_to_columns. cbn [ns_struct ns_names]. destruct (Nat.eqb_spec (length ns) (length ts)) as [E|E]; split; eauto; [|contradiction].
  intros (cols & H). discriminate.
Qed.

Section Examples.
  Definition qx_history : list (xtype * extension) :=
    [(XtRelation, ex_handler "Scan" "u/1"); (XtTable, ex_handler "Blob" "u/2"); (XtRelation, ex_handler "Alpha" "u/3");
     (XtRelation, ex_handler "Scanner" "u/4"); (XtRelation, ex_handler "Scan" "u/5")].
  Example qx_names : extension_names (run_regs qx_history) XtRelation = [L "Alpha"; L "Scan"; L "Scanner"].
  Proof. vm_compute. reflexivity. Qed.
  Example qx_schema : columns_to_struct [XNamed (L "a") (TSimple SI64 NRequired 0); XNamed (L "b") (TSimple SString NNullable 0)] =
    Ok (mk_named_struct [L "a"; L "b"] (Some ([TSimple SI64 NRequired 0; TSimple SString NNullable 0], 0, NRequired))).
  Proof. reflexivity. Qed.
  Example qx_uneven : exists e, struct_to_columns (mk_named_struct [L "a"] (Some ([], 0, NRequired))) = Err e.
  Proof. eexists. reflexivity. Qed.
End Examples.
