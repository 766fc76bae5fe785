(** C56: types, literals and expressions are written in their notation, and what has
    none is reported. *)
From Coq Require Import String List NArith ZArith Bool Lia.
From Verif Require Import Base BaseFacts Names SpecNames SimpleExt SimpleExtFacts Out Anchors Types Calendar
  SpecLiterals Literals Exprs SpecMeaning SpecNotation NotationBase NotationTypes NotationLits NotationExprs Props_Ext.
Import ListNotations.
Local Open Scope string_scope.
Local Open Scope list_scope.
Local Open Scope nat_scope.

(** Written without a word of complaint, and as [s]. *)
Definition written_as (o : out) (s : list N) : Prop := o_errs o = [] /\ o_panics o = [] /\ o_text o = s.
Definition complained (o : out) : Prop := o_errs o <> [] \/ o_panics o <> [].

Theorem C56_types : forall op e, loaded e -> forall t s, written_as (type_out op e t) s <-> type_text op e t s.
Proof. intros op e H t s. apply type_text_iff. now apply loaded_wf. Qed.
Theorem C56_literals : forall (U : Unicode) (F : Floats) op e, loaded e -> forall l s,
  written_as (literal_out op e l) s <-> literal_text op e l s.
Proof. intros U F op e H l s. apply literal_iff. now apply loaded_wf. Qed.
Theorem C56_expressions : forall (U : Unicode) (F : Floats) op e, loaded e -> forall x s,
  written_as (expr_out op e x) s <-> expr_text op e x s.
Proof. intros U F op e H x s. apply expr_text_iff. now apply loaded_wf. Qed.
Theorem C56_arguments : forall (U : Unicode) (F : Floats) op e, loaded e -> forall a s,
  written_as (arg_out op e a) s <-> arg_text op e a s.
Proof. intros U F op e H a s. apply arg_text_iff. now apply loaded_wf. Qed.
Theorem C56_measures : forall (U : Unicode) (F : Floats) op e, loaded e -> forall a s,
  written_as (aggfn_out op e a) s <-> measure_text op e a s.
Proof. intros U F op e H a s. apply aggfn_iff. now apply loaded_wf. Qed.
Theorem C56_names : forall (U : Unicode) n s, show_name n = s <-> name_text n s.
Proof. intros U n s. rewrite name_text_iff. split; auto. Qed.
Theorem C56_references : forall op e, loaded e -> forall k a s,
  written_as (ref_out op e k a) s <-> reference_text op e k a s.
Proof. intros op e H k a s. apply reference_iff. now apply loaded_wf. Qed.

(** There is a complaint exactly about the messages that no text shows; and no message
    is shown by two texts. *)
Lemma complained_iff o (P : list N -> Prop) : (forall s, written_as o s <-> P s) -> (complained o <-> ~ exists s, P s).
Proof.
  intros H. unfold complained. split.
  - intros C (s & K). apply H in K as (K1 & K2 & _). destruct C; contradiction.
  - intros N. destruct (o_errs o) eqn:E1; [|left; discriminate]. destruct (o_panics o) eqn:E2; [|right; discriminate].
    exfalso. apply N. exists (o_text o). apply H. repeat split; auto.
Qed.
Theorem C56_complaints : forall (U : Unicode) (F : Floats) op e, loaded e ->
  (forall t, complained (type_out op e t) <-> ~ exists s, type_text op e t s) /\
  (forall l, complained (literal_out op e l) <-> ~ exists s, literal_text op e l s) /\
  (forall x, complained (expr_out op e x) <-> ~ exists s, expr_text op e x s) /\
  (forall a, complained (aggfn_out op e a) <-> ~ exists s, measure_text op e a s).
Proof.
  intros U F op e H. split; [|split; [|split]]; intros ?; apply complained_iff; intros s.
  - now apply C56_types.
  - now apply C56_literals.
  - now apply C56_expressions.
  - now apply C56_measures.
Qed.
Theorem C56_one_text : forall (U : Unicode) (F : Floats) op e, loaded e -> forall x s s',
  expr_text op e x s -> expr_text op e x s' -> s = s'.
Proof.
  intros U F op e H x s s' K K'. apply C56_expressions in K as (_ & _ & <-), K' as (_ & _ & <-); auto.
Qed.

(** ** Examples *)

Section Examples.
  #[local] Existing Instance ascii_tables.
  #[local] Existing Instance toy_floats.

  Definition no_exts : exts := fst (from_extensions [mk_urn 1 (L "urn:a")]
    [Some (mk_decl KFunction 1 10 (L "gt:any_any")); Some (mk_decl KFunction 1 11 (L "extract"))]).
  Lemma no_loaded : loaded no_exts. Proof. eexists _, _. reflexivity. Qed.
  Definition no_options : options := mk_options VRequired VRequired false true (L "  ") 5.

  (** By the rules of notation, not by running the writer. *)
  Lemma numeral_of s : Forall digit s -> s <> [] -> hd 0%N s <> 48%N -> numeral (decimal s) s.
  Proof. intros H N K. constructor; auto. now split. Qed.
  Ltac digs := repeat constructor; vm_compute; intuition discriminate.
  Example ex_decimal : type_text no_options no_exts (TDecimal 38 10 NNullable 0) (L "decimal?<38, 10>").
  Proof.
    apply (ty_decimal _ _ 38 10 (L "38") (L "10")).
    - apply (numeral_of (L "38")); [digs|discriminate|discriminate].
    - apply (numeral_of (L "10")); [digs|discriminate|discriminate].
    - exists (L "?"), []. repeat constructor.
  Qed.
  Example ex_decimal_only s : type_text no_options no_exts (TDecimal 38 10 NNullable 0) s -> s = L "decimal?<38, 10>".
  Proof. intros H. apply C56_types in H as (_ & _ & <-); [|apply no_loaded]. vm_compute. reflexivity. Qed.
  (** An enumeration argument with a space, and a column. *)
  Definition no_call : pexpr :=
    EFunc 11 [AEnum (L "day of week"); AValue (ESel (mk_fieldref (RefDirect (SegField 3 None)) RootRef))]
      [mk_fnopt (L "rounding") [L "TIE"; L "CEIL"]] (Some (TSimple SI64 NRequired 0)).
  Definition no_text : list N := L "extract(&""day of week"", $3, rounding" ++ [8658%N] ++ L "[TIE, CEIL]):i64".
  Example ex_call : expr_text no_options no_exts no_call no_text.
  Proof. apply C56_expressions; [apply no_loaded|]. vm_compute. repeat split. Qed.
  (** Values that no text shows. *)
  Example ex_no_text op : ~ exists s, literal_text op no_exts (mk_lit (Some (LPrecisionTime 5 0)) false 0) s.
  Proof.
    intros (s & H). inversion H as [|v n w x t y S V| v n w x S V]; subst; inversion V as [| | | | | | | | | | | | | |p z q r I| | |];
      cbn in I; intuition discriminate.
  Qed.
  Example ex_reported : complained (literal_out no_options no_exts (mk_lit (Some (LPrecisionTime 5 0)) false 0)).
  Proof. apply C56_complaints; [apply no_loaded|]. apply ex_no_text. Qed.
  Example ex_undeclared : complained (expr_out no_options no_exts (EFunc 12 [] [] (Some (TSimple SI64 NRequired 0)))).
  Proof.
    apply C56_complaints; [apply no_loaded|]. intros (s & H). inversion H as [| |? ? ? ? ? ? ? R| |]; subst.
    inversion R as [? ? u n x A D N|? ? u n b A D N|? u n b A D N|? u n b A D N|? u n b x A D N|? ? u n b K A D N|? ? u n b x K A D N]; vm_compute in D; discriminate.
  Qed.
  Example ex_date : written_as (literal_out no_options no_exts (mk_lit (Some (LDate 19723)) false 0)) (L "'2024-01-01':date").
  Proof. vm_compute. repeat split. Qed.
End Examples.
