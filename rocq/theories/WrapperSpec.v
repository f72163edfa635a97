(** Specification vocabulary for the one-level wrapper functions. *)
From Verif Require Export Spec LwaSpec EqvlatSpec.
Open Scope R_scope.

(** the planet seen in the mirror: rows in the opposite order, vorticity with the opposite sign *)
Definition mirror_field (nlat : nat) (v : nat -> nat -> R) : nat -> nat -> R := fun j i => - v (nlat - 1 - j)%nat i.
Definition mirror_profile (nlat : nat) (q : nat -> R) : nat -> R := fun j => - q (nlat - 1 - j)%nat.

(** local wave activity (both parts) in a domain of s rows *)
Definition wave_activity (s : nat) (v : nat -> nat -> R) (q dmu : nat -> R) (j i : nat) : R :=
  lwa_anticyclonic s v q dmu j i + lwa_cyclonic s v q dmu j i.

(** q is the reference value at latitude y for the field v on a domain of s rows: the value at y of the curve that
    assigns to each of n contour values the latitude south of which the planet has the area enclosed by the contour *)
Definition reference_value (s nlon : nat) (v area : nat -> nat -> R) (n : nat) (a lo hi y q : R) : Prop :=
  on_curve n (fun k => latitude_of_area a (total_below s nlon v area (contour lo hi n k))) (contour lo hi n) y q.

(** rows [first], [first]+1, ... of an array *)
Definition from_row {B : Type} (first : nat) (x : nat -> B) : nat -> B := fun j => x (first + j)%nat.
