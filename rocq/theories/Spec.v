(** Vocabulary of the specifications: ordinary mathematics on the reals, independent of the model.
    Nothing here refers to the code. *)
From Coq Require Export Reals List Arith Lia Lra Permutation.
Export ListNotations.
Open Scope R_scope.

(** sum of [f r] for lo <= r < hi *)
Definition Sum (lo hi : nat) (f : nat -> R) : R :=
  fold_right Rplus 0 (map f (seq lo (hi - lo))).

(** sum of [f x] over the elements of a list *)
Definition SumL {T : Type} (l : list T) (f : T -> R) : R := fold_right Rplus 0 (map f l).

(** positive part *)
Definition ppart (x : R) : R := Rmax x 0.

(** indicator of a decidable condition *)
Definition indic {P : Prop} (d : {P} + {~ P}) : R := if d then 1 else 0.

Definition monotone (f : R -> R) : Prop := forall x y, x <= y -> f x <= f y.

(** a function of an index is non-decreasing on [0, n) *)
Definition nondecreasing (n : nat) (f : nat -> R) : Prop :=
  forall a b, (a <= b < n)%nat -> f a <= f b.
Definition ascending (n : nat) (f : nat -> R) : Prop :=
  forall a b, (a < b < n)%nat -> f a < f b.
