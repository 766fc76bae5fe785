(** C02, C34: types. *)
From Coq Require Import String List NArith ZArith Bool Lia ZifyN ZifyBool.
From Verif Require Import Base BaseFacts Peg PegFacts Names OMap SimpleExt SpecExt Out Anchors SimpleExtFacts FromExtFacts
  AnchorsFacts Types SpecTypes TypesFacts Props_Ext.
Import ListNotations.

(** C02.  A writable type is read back as itself, and exactly its text is
    consumed whatever comes next, as long as that cannot continue a type name. *)
Theorem C02_type_round_trip :
  forall (op : options) (e : exts) (t : ptype) (rest : list N),
    loaded e ->
    op_anchors op <> VNever ->
    type_ok e t = true ->
    hd_not type_stop rest = true ->
    exists c, g_type (o_text (type_out op e t) ++ rest) = Some (c, rest) /\ lower_type e c = Ok t.
Proof.
  intros op e t rest W%loaded_wf Hop Hok Hr.
  destruct (type_round_trip op e t W Hop Hok) as (c & Hc & Hg). exists c. now rewrite Hg.
Qed.
Print Assumptions C02_type_round_trip.

(** It is written without complaint when every nullability is given. *)
Theorem C02_type_no_errors :
  forall op e t, loaded e -> type_ok e t = true -> nulls_given t = true ->
    o_errs (type_out op e t) = [] /\ o_panics (type_out op e t) = [].
Proof.
  intros op e t W%loaded_wf Hok Hn. destruct (type_quiet op e t W Hok Hn) as (H1 & _ & H3). auto.
Qed.
Print Assumptions C02_type_no_errors.

(** Different writable types are written differently. *)
Theorem C02_types_distinct :
  forall op e t1 t2, loaded e -> op_anchors op <> VNever -> type_ok e t1 = true -> type_ok e t2 = true ->
    o_text (type_out op e t1) = o_text (type_out op e t2) -> t1 = t2.
Proof.
  intros op e t1 t2 W Hop H1 H2 E.
  destruct (C02_type_round_trip op e t1 [] W Hop H1 eq_refl) as (c1 & G1 & L1).
  destruct (C02_type_round_trip op e t2 [] W Hop H2 eq_refl) as (c2 & G2 & L2).
  rewrite E, G2 in G1. injection G1 as <-. congruence.
Qed.
Print Assumptions C02_types_distinct.

(** Whatever text a type is read from, if the declared types have usable names
    then the type is writable, so it survives being written and read again. *)
Theorem C02_read_types_round_trip :
  forall (op : options) (e : exts) (s r rest : list N) (c : tcst) (t : ptype),
    loaded e -> types_usable e -> op_anchors op <> VNever ->
    g_type s = Some (c, r) -> lower_type e c = Ok t ->
    hd_not type_stop rest = true ->
    exists c', g_type (o_text (type_out op e t) ++ rest) = Some (c', rest) /\ lower_type e c' = Ok t.
Proof.
  intros op e s r rest c t W U Hop _ Hl Hr. apply C02_type_round_trip; auto.
  eapply lower_type_writable; eauto. now apply loaded_wf.
Qed.
Print Assumptions C02_read_types_round_trip.

(** C34.  Every precision in a type read from text is between 0 and 12. *)
Theorem C34_precision_bounds :
  forall (e : exts) (s r : list N) (c : tcst) (t : ptype) (p : Z),
    g_type s = Some (c, r) -> lower_type e c = Ok t -> In p (precisions t) -> (0 <= p <= 12)%Z.
Proof.
  intros e s r c t p _. revert t p. revert c.
  assert (HP : forall s z, parse_precision s = Ok z -> (0 <= z <= 12)%Z).
  { intros q z. unfold parse_precision. destruct (parse_i32 q); [|discriminate].
    destruct (in_range 0 12 z0) eqn:E; [|discriminate]. intros [= <-]. unfold in_range in E. lia. }
  apply (tcst_ind2 (fun c => forall t p, lower_type e c = Ok t -> In p (precisions t) -> (0 <= p <= 12)%Z)
           (fun c => forall t p, lower_param e c = Ok (PType t) -> In p (precisions t) -> (0 <= p <= 12)%Z)).
  - intros q n t p. cbn [lower_type]. destruct (simple_kind q); [|discriminate]. intros [= <-] [].
  - intros n c IH t p H. apply rmap_ok in H as (t' & Ht' & ->). cbn [precisions]. eauto.
  - discriminate.
  - discriminate.
  - intros k n q t p H. apply rmap_ok in H as (z & Hz & ->). intros [<-|[]]. eauto.
  - intros n q t p H. apply rmap_ok in H as (z & Hz & ->). intros [<-|[]]. eauto.
  - intros i a u n ps IH t p H. cbn [lower_type] in H.
    apply rbind_ok in H as (a' & _ & H). apply rbind_ok in H as (u' & _ & H).
    apply rbind_ok in H as (qs & E & H). apply rbind_ok in H as (r' & G & H). injection H as <-.
    cbn [precisions]. intros Hin. apply in_concat in Hin as (l & Hl & Hp). apply in_map_iff in Hl as (q & <- & Hq).
    destruct ps as [cs|]; [|injection E as <-; destruct Hq]. specialize (IH cs eq_refl).
    apply params_loop_inv in E. clear G. induction E as [|x y cs ys Hx Hxs IHl]; [destruct Hq|].
    inversion IH; subst. destruct Hq as [<-|Hq]; [|auto].
    destruct y; cbn in Hp; try contradiction. eauto.
  - intros c IH t p H. apply rmap_ok in H as (t' & Ht' & [= ->]). eauto.
  - discriminate.
  - discriminate.
Qed.
Print Assumptions C34_precision_bounds.

(** ** The hypotheses are met *)

Definition ty_ds : list (option ext_decl) :=
  [Some (mk_decl KType 1 5 (L "u!point")); Some (mk_decl KType 1 6 (L "tree"));
   Some (mk_decl KType 2 7 (L "tree")); Some (mk_decl KTypeVariation 1 3 (L "small"))].
Definition ty_exts : exts := fst (from_extensions ex_us ty_ds).
Example ty_loaded : loaded ty_exts.
Proof. now exists ex_us, ty_ds. Qed.
Definition ty_ex : ptype :=
  TUser 6 [PType (TList (Some (TPrec PkTimestampTz 9 NNullable 0)) NRequired 0);
           PType (TUser 5 [] NNullable 0); PType (TIntervalDay (Some 6%Z) NRequired 0)] NNullable 0.
Example ty_ex_ok :
  type_ok ty_exts ty_ex = true /\ nulls_given ty_ex = true /\
  o_text (type_out opts_default ty_exts ty_ex) =
    L "tree#6?<list<precisiontimestamptz?<9>>, point?, interval_day<6>>".
Proof. vm_compute. auto. Qed.
Example ty_usable : types_usable ty_exts.
Proof.
  intros a u n H. apply decl_get_in in H; [|apply loaded_wf, ty_loaded].
  vm_compute in H.
  repeat (destruct H as [H|H];
    [first [discriminate H
           |injection H as <- <- <-; split; [reflexivity|split; [reflexivity|unfold u32_max; lia]]]|]).
  destruct H.
Qed.
Example ty_precisions : precisions ty_ex = [9%Z; 6%Z].
Proof. reflexivity. Qed.

(** ** Types that are written without complaint but do not come back *)

(** What reading back the text of a type gives. *)
Definition reread (op : options) (e : exts) (t : ptype) : option (pres ptype * list N) :=
  option_map (fun x => (lower_type e (fst x), snd x)) (g_type (o_text (type_out op e t))).

(** A declared type whose name begins with the name of a built-in type. *)
Definition ty_bad : exts :=
  fst (from_extensions ex_us [Some (mk_decl KType 1 5 (L "date_range")); Some (mk_decl KType 1 6 (L "a:b"))]).

Theorem C02_unwritable_refuted :
  (exists t, o_errs (type_out opts_default ty_exts t) = [] /\
     exists p, reread opts_default ty_exts t = Some (Panic p, [])) /\
  (exists t, o_errs (type_out opts_default ty_exts t) = [] /\
     exists m, reread opts_default ty_exts t = Some (Err m, [])) /\
  (exists t t' r, o_errs (type_out opts_default ty_bad t) = [] /\
     reread opts_default ty_bad t = Some (Ok t', r) /\ t' <> t /\ r <> []).
Proof.
  split; [|split].
  - exists (TDecimal 38 10 NRequired 0). split; [reflexivity|]. eexists. vm_compute. reflexivity.
  - exists (TStruct [] NRequired 0). split; [reflexivity|]. eexists. vm_compute. reflexivity.
  - exists (TUser 5 [] NRequired 0), (TSimple SDate NRequired 0), (L "_range").
    split; [reflexivity|]. split; [vm_compute; reflexivity|]. split; discriminate.
Qed.
Print Assumptions C02_unwritable_refuted.

(** The kinds of types that reading turns into a crash. *)
Example unwritable_panics :
  Forall (fun t => o_errs (type_out opts_default ty_exts t) = [] /\
                   match reread opts_default ty_exts t with Some (Panic _, _) => True | _ => False end)
    [TDecimal 38 10 NRequired 0; TLen LkVarchar 10 NRequired 0; TLen LkFixedChar 10 NNullable 0;
     TStruct [TSimple SI64 NRequired 0] NRequired 0;
     TMap (Some (TSimple SI64 NRequired 0)) (Some (TSimple SI64 NRequired 0)) NRequired 0;
     TIntervalCompound 6 NRequired 0; TUser 6 [PInt 3] NRequired 0].
Proof. repeat constructor. Qed.
Example unwritable_variation :
  o_errs (type_out opts_default ty_exts (TSimple SI64 NRequired 3)) = [] /\
  reread opts_default ty_exts (TSimple SI64 NRequired 3) = Some (Ok (TSimple SI64 NRequired 0), L "[small]").
Proof. vm_compute. auto. Qed.
