(** Vocabulary of C180: the grid points whose values enter QGPV at a given point.  1-based indices (i longitude, j latitude from the south
    pole, k level), as in /repo/src/falwa/f90_modules/compute_qgpv.f90 and compute_qgpv_direct_inv.f90. *)
From Verif Require Import Base.
From Coq Require Import Lia.

(** the row whose vorticity is shown at row j: the pole rows show the zonal mean of the row next to them *)
Definition shown_row (nlat j : nat) : nat := if Nat.eqb j nlat then (nlat - 1)%nat else if Nat.eqb j 1 then 2%nat else j.
Definition pole_row (nlat j : nat) : Prop := j = 1%nat \/ j = nlat.
(** next to each other on a circle of latitude *)
Definition side_by_side (nlon i i' : nat) : Prop := (i' = i + 1 \/ i = i' + 1 \/ (i = 1 /\ i' = nlon) \/ (i = nlon /\ i' = 1))%nat.
(** the zonal wind at (i0, j0) enters the vorticity at (i, j) *)
Definition u_rows (nlat j0 j : nat) : Prop := (shown_row nlat j = j0 + 1 \/ shown_row nlat j + 1 = j0)%nat.
Definition u_reaches (nlat i0 j0 i j : nat) : Prop := u_rows nlat j0 j /\ (pole_row nlat j \/ i = i0).
(** the meridional wind at (i0, j0) enters the vorticity at (i, j) *)
Definition v_rows (nlat j0 j : nat) : Prop := shown_row nlat j = j0.
Definition v_reaches (nlon nlat i0 j0 i j : nat) : Prop := v_rows nlat j0 j /\ (pole_row nlat j \/ side_by_side nlon i i0).
(** the potential temperature at (i0, j0, k0) enters the stretching term at (i, j, k) *)
Definition theta_reaches (i0 j0 k0 i j k : nat) : Prop := i = i0 /\ j = j0 /\ (k = k0 + 1 \/ k0 = k + 1)%nat.
(** the same array, except perhaps at one point *)
Definition same_but {A : Type} (i0 j0 k0 : nat) (x x' : nat -> nat -> nat -> A) : Prop :=
  forall i j k, ~ (i = i0 /\ j = j0 /\ k = k0) -> x' i j k = x i j k.
