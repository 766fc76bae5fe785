(** Trimming, lines and chunks. *)
From Coq Require Import String List NArith ZArith Bool Lia PeanoNat ZifyBool ZifyN.
From Verif Require Import Base BaseFacts Lines.
Import ListNotations.

(** ** Trimming *)

Lemma trim_end_by_app f a b : trim_end_by f b <> [] -> trim_end_by f (a ++ b) = a ++ trim_end_by f b.
Proof.
  intros H. induction a as [|c a IH]; auto. cbn [app trim_end_by]. rewrite IH.
  destruct (a ++ trim_end_by f b) eqn:E; auto. apply app_eq_nil in E as [_ E]. congruence.
Qed.
Lemma trim_end_by_drop f a b : forallb f b = true -> trim_end_by f (a ++ b) = trim_end_by f a.
Proof.
  intros H. induction a as [|c a IH]; cbn [app trim_end_by].
  - induction b as [|c b IH]; auto. cbn [forallb] in H. bool_hyps. cbn [trim_end_by].
    rewrite IH by auto. now rewrite H.
  - now rewrite IH.
Qed.
Lemma trim_end_by_split f s : exists w, s = trim_end_by f s ++ w /\ forallb f w = true.
Proof.
  induction s as [|c s (w & E & Hw)]; [exists []; auto|]. cbn [trim_end_by].
  destruct (trim_end_by f s) as [|x t] eqn:Et.
  - cbn in E. subst w. destruct (f c) eqn:Hc.
    + exists (c :: s). cbn. rewrite Hc. auto.
    + exists s. auto.
  - exists w. cbn. rewrite E at 1. auto.
Qed.
Lemma trim_end_by_all f s : trim_end_by f s = [] <-> forallb f s = true.
Proof.
  split; intros H.
  - destruct (trim_end_by_split f s) as (w & E & Hw). rewrite H in E. cbn in E. now subst.
  - change s with ([] ++ s). now rewrite trim_end_by_drop.
Qed.
Lemma trim_end_by_sub f g s : (forall c, f c = true -> g c = true) ->
  trim_end_by g (trim_end_by f s) = trim_end_by g s.
Proof.
  intros H. destruct (trim_end_by_split f s) as (w & E & Hw). rewrite E at 2.
  symmetry. apply trim_end_by_drop. apply forallb_forall. intros x Hx.
  rewrite forallb_forall in Hw. auto.
Qed.
Lemma trim_end_idem f s : trim_end_by f (trim_end_by f s) = trim_end_by f s.
Proof. apply trim_end_by_sub; auto. Qed.

Lemma is_eol_ws c : is_eol c = true -> is_ws c = true.
Proof. unfold is_eol, is_ws, c_cr, c_nl. lia. Qed.

Lemma trim_nil s : trim s = [] <-> forallb is_ws s = true.
Proof.
  unfold trim, trim_end, trim_start. rewrite trim_end_by_all.
  destruct (span is_ws s) as [a r] eqn:E. apply span_spec in E as (-> & Ha & Hr). cbn [snd].
  rewrite forallb_app, Ha. cbn. tauto.
Qed.

(** A chunk is blank, and is parsed, according to its text without trailing
    white space. *)
Lemma indented_trim s : indented (trim_end s) = indented s.
Proof. unfold indented, trim_end. now rewrite trim_end_idem. Qed.
Lemma indented_eol s : indented (trim_end_by is_eol s) = indented s.
Proof. unfold indented, trim_end. now rewrite (trim_end_by_sub _ _ _ is_eol_ws). Qed.
Lemma indented_drop s w : forallb is_ws w = true -> indented (s ++ w) = indented s.
Proof. intros H. unfold indented, trim_end. now rewrite trim_end_by_drop. Qed.

(** ** Lines *)

(** The first line with its line break, and the rest. *)
Definition first_line (s : list N) : list N * list N :=
  match split_at_char c_nl s with
  | Some (l, a) => (l ++ [c_nl], a)
  | None => (s, [])
  end.
(** A continuation line at depth [base + 1]. *)
Definition is_cont (base : nat) (l : list N) : bool :=
  (fst (indented l) =? base + 1)%nat && starts_with (L "- ") (snd (indented l)).

Lemma first_line_split s : fst (first_line s) ++ snd (first_line s) = s.
Proof.
  unfold first_line. destruct (split_at_char c_nl s) as [[l a]|] eqn:E; cbn.
  - apply split_at_char_spec in E as [-> _]. now rewrite <- app_assoc.
  - now rewrite app_nil_r.
Qed.
Lemma first_line_nonempty s : s <> [] -> fst (first_line s) <> [].
Proof.
  unfold first_line. destruct (split_at_char c_nl s) as [[l a]|]; cbn; auto.
  intros _. destruct l; discriminate.
Qed.
Lemma first_line_shorter s : s <> [] -> length (snd (first_line s)) < length s.
Proof.
  intros H. pose proof (first_line_split s) as E. pose proof (first_line_nonempty s H) as F.
  rewrite <- E at 2. rewrite app_length. destruct (fst (first_line s)); [congruence|cbn; lia].
Qed.

(** The continuation lines following a line. *)
Fixpoint conts (fuel : nat) (base : nat) (s : list N) : list N * list N :=
  match fuel with
  | O => ([], s)
  | S f =>
      match s with
      | [] => ([], [])
      | _ => if is_cont base (fst (first_line s))
             then let (a, b) := conts f base (snd (first_line s)) in (fst (first_line s) ++ a, b)
             else ([], s)
      end
  end.
Fixpoint count_nl (s : list N) : N :=
  match s with
  | [] => 0
  | c :: r => if (c =? c_nl)%N then 1 + count_nl r else count_nl r
  end.
Definition take_chunk (plan : bool) (s : list N) : list N * list N :=
  let (l, a) := first_line s in
  if plan then let (c, r) := conts (length a) (fst (indented l)) a in (l ++ c, r) else (l, a).

Lemma count_nl_app a b : count_nl (a ++ b) = (count_nl a + count_nl b)%N.
Proof. induction a as [|c a IH]; cbn [app count_nl]; auto. destruct (c =? c_nl)%N; rewrite IH; lia. Qed.
Lemma count_nl_none a : contains_char c_nl a = false -> count_nl a = 0%N.
Proof. induction a as [|c a IH]; cbn; auto. intros H. apply orb_false_iff in H as [-> H]. auto. Qed.

Lemma first_line_count s : snd (first_line s) <> [] -> count_nl (fst (first_line s)) = 1%N.
Proof.
  unfold first_line. destruct (split_at_char c_nl s) as [[l a]|] eqn:E; cbn; [|congruence].
  intros _. apply split_at_char_spec in E as [_ E]. rewrite count_nl_app, count_nl_none by auto. reflexivity.
Qed.

Lemma strip_cr_ws l : exists w, l = strip_cr l ++ w /\ forallb is_ws w = true.
Proof.
  induction l as [|c l IH]; [exists []; auto|]. destruct l as [|d l].
  - cbn. destruct (N.eqb_spec c c_cr); [exists [c]|exists []]; subst; auto.
  - destruct IH as (w & E & Hw). exists w. split; auto.
    change (strip_cr (c :: d :: l)) with (c :: strip_cr (d :: l)). cbn [app]. now rewrite E at 1.
Qed.

Lemma peek_line_spec c l : peek_line c = Some l ->
  cu_rest c <> [] /\ ln_raw l = fst (first_line (cu_rest c)) /\ ln_after l = snd (first_line (cu_rest c)) /\
  indented (ln_text l) = indented (fst (first_line (cu_rest c))).
Proof.
  unfold peek_line, first_line. destruct (cu_rest c) as [|x s] eqn:E; [discriminate|].
  destruct (split_at_char c_nl (x :: s)) as [[a b]|]; intros [= <-]; cbn [ln_raw ln_after ln_text fst snd].
  - repeat split; try discriminate.
    destruct (strip_cr_ws a) as (w & Ea & Hw).
    rewrite indented_drop by reflexivity. rewrite Ea at 2. symmetry. now apply indented_drop.
  - repeat split; discriminate.
Qed.
Lemma peek_line_none c : peek_line c = None -> cu_rest c = [].
Proof. unfold peek_line. destruct (cu_rest c); auto. destruct (split_at_char c_nl _) as [[? ?]|]; discriminate. Qed.

Lemma merge_conts_spec fuel base c :
  let (a, b) := conts fuel base (cu_rest c) in
  cu_chunk (merge_conts fuel base c) = cu_chunk c ++ a /\
  cu_rest (merge_conts fuel base c) = b /\
  cu_start (merge_conts fuel base c) = cu_start c /\
  (b <> [] -> cu_next (merge_conts fuel base c) = (cu_next c + count_nl a)%N).
Proof.
  revert c; induction fuel as [|f IH]; intros c; cbn [conts merge_conts].
  - cbn. rewrite app_nil_r. repeat split; auto. intros; lia.
  - destruct (peek_line c) as [l|] eqn:El.
    + apply peek_line_spec in El as (Hn & Hr & Ha & Hi).
      destruct (cu_rest c) as [|x s] eqn:Ec; [congruence|]. rewrite <- Ec in *.
      destruct (indented (ln_text l)) as [depth body] eqn:Ei. unfold is_cont. rewrite <- Hi. cbn [fst snd].
      destruct ((depth =? base + 1)%nat && starts_with (L "- ") body).
      * specialize (IH (merge c l)). change (cu_rest (merge c l)) with (ln_after l) in IH. rewrite Ha in IH.
        destruct (conts f base (snd (first_line (cu_rest c)))) as [a b] eqn:Econ.
        destruct IH as (I1 & I2 & I3 & I4). repeat split.
        -- rewrite I1. cbn [merge cu_chunk]. rewrite Hr. now rewrite <- app_assoc.
        -- exact I2.
        -- exact I3.
        -- intros Hb. rewrite I4 by auto. cbn [merge cu_next]. rewrite count_nl_app, first_line_count; [lia|].
           intros E0. rewrite E0 in Econ. destruct f; cbn in Econ; congruence.
      * rewrite app_nil_r. repeat split; auto. cbn. intros; lia.
    + apply peek_line_none in El. rewrite El. rewrite app_nil_r. repeat split; auto. cbn. congruence.
Qed.

Lemma conts_split fuel base s : fst (conts fuel base s) ++ snd (conts fuel base s) = s.
Proof.
  revert s; induction fuel as [|f IH]; intros s; cbn [conts]; auto. destruct s as [|x s]; auto.
  destruct (is_cont base (fst (first_line (x :: s)))); auto.
  specialize (IH (snd (first_line (x :: s)))). destruct (conts f base _) as [a b]. cbn [fst snd] in *.
  rewrite <- app_assoc, IH. apply first_line_split.
Qed.
Lemma take_chunk_split plan s : fst (take_chunk plan s) ++ snd (take_chunk plan s) = s.
Proof.
  unfold take_chunk. pose proof (first_line_split s) as E. destruct (first_line s) as [l a]. cbn [fst snd] in E.
  destruct plan; auto. pose proof (conts_split (length a) (fst (indented l)) a) as C.
  destruct (conts _ _ a). cbn [fst snd] in *. now rewrite <- app_assoc, C.
Qed.
Lemma take_chunk_nonempty plan s : s <> [] -> fst (take_chunk plan s) <> [].
Proof.
  intros H. unfold take_chunk. pose proof (first_line_nonempty s H) as E. destruct (first_line s) as [l a]. cbn [fst] in E.
  destruct plan; auto. destruct (conts _ _ a). cbn. destruct l; cbn; congruence.
Qed.
Lemma take_chunk_shorter plan s : s <> [] -> length (snd (take_chunk plan s)) < length s.
Proof.
  intros H. pose proof (take_chunk_split plan s) as E. pose proof (take_chunk_nonempty plan s H) as F.
  rewrite <- E at 2. rewrite app_length. destruct (fst (take_chunk plan s)); [congruence|cbn; lia].
Qed.

(** What [next_chunk] does on a fresh cursor. *)
Lemma next_chunk_spec {E} plan s n : s <> [] ->
  exists m, next_chunk (E := E) plan (mk_cursor [] s n n) =
            Ok (mk_chunk (fst (take_chunk plan s)) n (cu_new (snd (take_chunk plan s)) m)) /\
            (snd (take_chunk plan s) <> [] -> m = (n + count_nl (fst (take_chunk plan s)))%N).
Proof.
  intros Hs. unfold next_chunk. destruct (peek_line (mk_cursor [] s n n)) as [l|] eqn:El.
  2:{ apply peek_line_none in El. cbn in El. congruence. }
  apply peek_line_spec in El as (_ & Hr & Ha & Hi). cbn [cu_rest] in *.
  unfold take_chunk. pose proof (first_line_count s) as Hc. destruct (first_line s) as [r a] eqn:Ef. cbn [fst snd] in *.
  destruct plan.
  - pose proof (merge_conts_spec (length a) (fst (indented r)) (merge (mk_cursor [] s n n) l)) as M.
    change (cu_rest (merge (mk_cursor [] s n n) l)) with (ln_after l) in *. rewrite Hi, Ha in *.
    destruct (conts (length a) (fst (indented r)) a) as [x b] eqn:Econ.
    set (c2 := merge_conts _ _ _) in *.
    destruct M as (M1 & M2 & M3 & M4). cbn [merge cu_chunk cu_start cu_next app fst snd] in *.
    exists (cu_next c2). split.
    + unfold cu_finish. cbn [fst snd]. rewrite M1, M2, M3, Hr. reflexivity.
    + intros Hb. rewrite M4, count_nl_app, Hc; auto; [lia|].
      intros E0. rewrite E0 in Econ. destruct (length a); cbn in Econ; congruence.
  - unfold cu_finish, merge. cbn [cu_chunk cu_rest cu_start cu_next app fst snd]. rewrite Hr, Ha.
    exists (n + 1)%N. split; auto. intros Hb. rewrite Hc; auto.
Qed.

(** ** Chunks of longer texts *)

(** Text made of complete lines. *)
Definition complete (s : list N) : Prop := s = [] \/ exists r, s = r ++ [c_nl].

Lemma split_at_char_app_r c a b : contains_char c a = true ->
  exists l r, split_at_char c (a ++ b) = Some (l, r ++ b) /\ a = l ++ c :: r.
Proof.
  induction a as [|x a IH]; cbn; [discriminate|]. destruct (N.eqb_spec x c); subst; cbn.
  - intros _. exists [], a. auto.
  - intros H. destruct (IH H) as (l & r & -> & ->). exists (x :: l), r. auto.
Qed.

Lemma complete_contains s : complete s -> s <> [] -> contains_char c_nl s = true.
Proof. intros [->|(r & ->)]; [congruence|]. intros _. rewrite contains_char_app. cbn. apply orb_true_r. Qed.

Lemma first_line_complete r t : complete r -> r <> [] ->
  first_line (r ++ t) = (fst (first_line r), snd (first_line r) ++ t) /\ complete (snd (first_line r)).
Proof.
  intros Hc Hr. pose proof (complete_contains r Hc Hr) as Hn.
  destruct (split_at_char_app_r c_nl r t Hn) as (l & x & E & El).
  destruct (split_at_char_app_r c_nl r [] Hn) as (l' & x' & E' & El'). rewrite !app_nil_r in E'.
  unfold first_line. rewrite E, E'. cbn [fst snd].
  assert (l = l' /\ x = x') as [<- <-].
  { subst r. apply split_at_char_spec in E' as [E' N']. apply split_at_char_spec in E as [E N].
    clear - El' N N'. revert l' N' El'. induction l as [|c l IH]; intros [|c' l'] N' El'; cbn in *.
    - now inversion El'.
    - inversion El'; subst. now rewrite N.eqb_refl in N'.
    - inversion El'; subst. now rewrite N.eqb_refl in N.
    - inversion El'; subst. apply orb_false_iff in N as [_ N], N' as [_ N'].
      destruct (IH N l' N' H1) as [-> ->]. auto. }
  split; auto. destruct Hc as [->|(y & Ey)]; [congruence|].
  destruct x as [|c x _] using rev_ind; [now left|]. right. exists x.
  rewrite Ey in El. rewrite app_comm_cons, app_assoc in El. apply app_inj_tail in El as [_ El]. congruence.
Qed.

(** Text that does not begin with a continuation line. *)
Definition no_cont (s : list N) : Prop :=
  s = [] \/ starts_with (L "- ") (snd (indented (fst (first_line s)))) = false.

Lemma conts_no_cont fuel base t : no_cont t -> conts fuel base t = ([], t).
Proof.
  intros H. destruct fuel as [|f]; cbn [conts]; auto. destruct t as [|x t]; auto.
  destruct H as [H|H]; [discriminate|]. unfold is_cont. rewrite H, andb_false_r. reflexivity.
Qed.

Lemma conts_app f1 f2 base r t : complete r -> no_cont t -> length r <= f1 -> length (r ++ t) <= f2 ->
  conts f2 base (r ++ t) = (fst (conts f1 base r), snd (conts f1 base r) ++ t) /\
  complete (snd (conts f1 base r)).
Proof.
  revert f2 r; induction f1 as [|f1 IH]; intros f2 r Hr Ht L1 L2.
  - destruct r; [|cbn in L1; lia]. cbn [conts fst snd app]. split; [now apply conts_no_cont|auto].
  - destruct r as [|x r].
    { cbn [conts fst snd app]. split; [now apply conts_no_cont|auto]. }
    destruct (first_line_complete (x :: r) t Hr ltac:(discriminate)) as [Ef Hc].
    pose proof (first_line_shorter (x :: r) ltac:(discriminate)) as Hs.
    destruct f2 as [|f2]; [cbn in L2; lia|].
    assert (Hu : conts (S f2) base ((x :: r) ++ t) =
              if is_cont base (fst (first_line ((x :: r) ++ t)))
              then let (a, b) := conts f2 base (snd (first_line ((x :: r) ++ t))) in
                   (fst (first_line ((x :: r) ++ t)) ++ a, b)
              else ([], (x :: r) ++ t)) by reflexivity.
    rewrite Hu, Ef. cbn [fst snd]. clear Hu.
    assert (Hu : conts (S f1) base (x :: r) =
              if is_cont base (fst (first_line (x :: r)))
              then let (a, b) := conts f1 base (snd (first_line (x :: r))) in
                   (fst (first_line (x :: r)) ++ a, b)
              else ([], (x :: r))) by reflexivity.
    rewrite Hu. clear Hu.
    destruct (is_cont base (fst (first_line (x :: r)))).
    + destruct (IH f2 (snd (first_line (x :: r))) Hc Ht) as [E C].
      * cbn in L1, Hs. lia.
      * rewrite app_length in *. cbn in L1, L2, Hs. lia.
      * rewrite E. destruct (conts f1 base _) as [a b]. cbn [fst snd] in *. auto.
    + cbn [fst snd]. auto.
Qed.

Lemma take_chunk_app plan r t : complete r -> r <> [] -> no_cont t ->
  take_chunk plan (r ++ t) = (fst (take_chunk plan r), snd (take_chunk plan r) ++ t) /\
  complete (snd (take_chunk plan r)).
Proof.
  intros Hc Hr Ht. unfold take_chunk. destruct (first_line_complete r t Hc Hr) as [E C]. rewrite E.
  destruct (first_line r) as [l a]. cbn [fst snd] in *. destruct plan; auto.
  destruct (conts_app (length a) (length (a ++ t)) (fst (indented l)) a t C Ht) as [E2 C2]; auto.
  rewrite E2. destruct (conts _ _ a). cbn [fst snd] in *. auto.
Qed.
