(** Equality of expressions.

    [expression_key], src/parser/relations.rs l.709-715, and [get_grouping_sets],
    src/textify/rels.rs l.818-821, compare expressions by their protobuf encoding.
    The encoding is injective and deterministic on the fields of this model, so the
    model compares the values themselves; what the model drops (the contents of
    [EOther], of expression roots, ...) is not compared. *)
From Coq Require Import String List NArith ZArith Bool.
From Verif Require Import Base Types Literals Exprs.
Import ListNotations.

Definition option_eq_dec {A} (f : forall a b : A, {a = b} + {a <> b}) (a b : option A) : {a = b} + {a <> b}.
Proof. decide equality. Defined.
Definition prod_eq_dec {A B} (f : forall a b : A, {a = b} + {a <> b}) (g : forall a b : B, {a = b} + {a <> b})
  (a b : A * B) : {a = b} + {a <> b}.
Proof. decide equality. Defined.

Definition str_eq_dec : forall a b : list N, {a = b} + {a <> b} := list_eq_dec N.eq_dec.

Definition nullability_eq_dec (a b : nullability) : {a = b} + {a <> b}.
Proof. decide equality. Defined.
Definition skind_eq_dec (a b : skind) : {a = b} + {a <> b}.
Proof. decide equality. Defined.
Definition preck_eq_dec (a b : preck) : {a = b} + {a <> b}.
Proof. decide equality. Defined.
Definition lenk_eq_dec (a b : lenk) : {a = b} + {a <> b}.
Proof. decide equality. Defined.

Fixpoint ptype_eq_dec (a b : ptype) : {a = b} + {a <> b}
with pparam_eq_dec (a b : pparam) : {a = b} + {a <> b}.
Proof.
  - decide equality; try apply N.eq_dec; try apply Z.eq_dec; try apply nullability_eq_dec;
      try apply skind_eq_dec; try apply preck_eq_dec; try apply lenk_eq_dec;
      try apply (option_eq_dec Z.eq_dec); try apply (option_eq_dec ptype_eq_dec);
      try apply (list_eq_dec ptype_eq_dec); try apply (list_eq_dec pparam_eq_dec).
  - decide equality; try apply Z.eq_dec; try apply str_eq_dec; try apply bool_dec.
Defined.

Definition ivmode_eq_dec (a b : ivmode) : {a = b} + {a <> b}.
Proof. decide equality; apply Z.eq_dec. Defined.
Definition interval_eq_dec (a b : interval) : {a = b} + {a <> b}.
Proof. decide equality; try apply Z.eq_dec. apply (option_eq_dec ivmode_eq_dec). Defined.
Definition litval_eq_dec (a b : litval) : {a = b} + {a <> b}.
Proof.
  decide equality; try apply Z.eq_dec; try apply N.eq_dec; try apply str_eq_dec; try apply bool_dec;
    try apply interval_eq_dec; try apply ptype_eq_dec; apply string_dec.
Defined.
Definition literal_eq_dec (a b : literal) : {a = b} + {a <> b}.
Proof. decide equality; [apply N.eq_dec|apply bool_dec|apply (option_eq_dec litval_eq_dec)]. Defined.

Fixpoint segment_eq_dec (a b : segment) : {a = b} + {a <> b}.
Proof. decide equality; [apply (option_eq_dec segment_eq_dec)|apply Z.eq_dec]. Defined.
Definition ref_type_eq_dec (a b : ref_type) : {a = b} + {a <> b}.
Proof. decide equality; apply segment_eq_dec. Defined.
Definition root_type_eq_dec (a b : root_type) : {a = b} + {a <> b}.
Proof. decide equality. Defined.
Definition field_ref_eq_dec (a b : field_ref) : {a = b} + {a <> b}.
Proof. decide equality; [apply root_type_eq_dec|apply ref_type_eq_dec]. Defined.
Definition fn_option_eq_dec (a b : fn_option) : {a = b} + {a <> b}.
Proof. decide equality; [apply (list_eq_dec str_eq_dec)|apply str_eq_dec]. Defined.

Fixpoint pexpr_eq_dec (a b : pexpr) : {a = b} + {a <> b}
with parg_eq_dec (a b : parg) : {a = b} + {a <> b}.
Proof.
  - decide equality; try apply N.eq_dec; try apply Z.eq_dec; try apply string_dec;
      try apply literal_eq_dec; try apply field_ref_eq_dec; try apply (list_eq_dec fn_option_eq_dec);
      try apply (option_eq_dec ptype_eq_dec); try apply (option_eq_dec pexpr_eq_dec);
      try apply (list_eq_dec parg_eq_dec);
      apply (list_eq_dec (prod_eq_dec (option_eq_dec pexpr_eq_dec) (option_eq_dec pexpr_eq_dec))).
  - decide equality; try apply ptype_eq_dec; try apply str_eq_dec.
Defined.

Definition pexpr_eqb (a b : pexpr) : bool := if pexpr_eq_dec a b then true else false.

Lemma pexpr_eqb_eq a b : pexpr_eqb a b = true <-> a = b.
Proof. unfold pexpr_eqb. destruct (pexpr_eq_dec a b); split; congruence. Qed.
Lemma pexpr_eqb_refl a : pexpr_eqb a a = true.
Proof. now apply pexpr_eqb_eq. Qed.
Lemma pexpr_eqb_neq a b : pexpr_eqb a b = false <-> a <> b.
Proof. unfold pexpr_eqb. destruct (pexpr_eq_dec a b); split; congruence. Qed.
