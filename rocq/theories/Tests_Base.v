(** Tests, not proofs: floating point numbers for the test files, kept as their
    shortest decimal text (a base 256 number with a leading 1), so that writing is
    the inverse of reading for the decimals the tests use.  Rust writes 3.0 as 3. *)
From Coq Require Import String List NArith Bool.
From Verif Require Import Base Names Literals.
Import ListNotations.
Local Open Scope list_scope.

Definition text_encode (s : list N) : N := fold_left (fun a c => (a * 256 + c)%N) s 1%N.
Fixpoint text_decode (fuel : nat) (n : N) (acc : list N) : list N :=
  match fuel with
  | O => acc
  | S fuel => if (n <=? 1)%N then acc else text_decode fuel (n / 256)%N ((n mod 256)%N :: acc)
  end.
Fixpoint strip_front (c : N) (s : list N) : list N :=
  match s with x :: r => if (x =? c)%N then strip_front c r else s | [] => [] end.
Definition trim_decimal (s : list N) : list N :=
  if existsb (N.eqb 46) s
  then let r := strip_front 48 (rev s) in
       rev (match r with c :: r' => if (c =? 46)%N then r' else r | [] => r end)
  else s.
Definition text_floats : Floats :=
  {| show64 := fun n => text_decode 64 n []; show32 := fun n => text_decode 64 n [];
     read64 := fun s => text_encode (trim_decimal s); to32 := fun n => n |}.
Example text_floats_work :
  map (fun s => @show64 text_floats (@read64 text_floats (L s))) ["3.1400"; "-0.50"; "3.0"; "12.125"]%string
  = map L ["3.14"; "-0.5"; "3"; "12.125"]%string.
Proof. vm_compute. reflexivity. Qed.
