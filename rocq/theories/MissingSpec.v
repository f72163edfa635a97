(** Specification vocabulary for missing values: masks, and the special values of IEEE arithmetic. *)
From Verif Require Export Spec Grid Masked.
From Coq Require Import SpecFloat.
Open Scope R_scope.

(** two masked arrays that show the same: equal masks, and equal values wherever the mask does not hide them *)
Definition show_the_same (a b : array3) : Prop :=
  match a, b with
  | MaskedArray x m, MaskedArray y m' => (forall l j i, m l j i = m' l j i) /\ forall l j i, m l j i = false -> x l j i = y l j i
  | Plain x, Plain y => forall l j i, x l j i = y l j i
  | _, _ => False
  end.

(** IEEE binary64 values *)
Definition not_a_number (x : B64) : Prop := x = S754_nan.
Definition infinite (x : B64) : Prop := exists s, x = S754_infinity s.
Definition finite_number (x : B64) : Prop := match x with S754_zero _ | S754_finite _ _ _ => True | _ => False end.
Definition sign_bit (x : B64) : bool := match x with S754_zero s | S754_infinity s | S754_finite s _ _ => s | S754_nan => false end.
