(** Specification vocabulary for rounded arithmetic.  The Fortran kernels work in single precision: REAL without a kind in
    /repo/src/falwa/f90_modules, compiled without a flag changing it (/repo/meson.build, /repo/src/falwa/meson.build). *)
From Verif Require Export Spec FluxSpec RefStatesSpec.
From Flocq Require Import Core.
Open Scope R_scope.

(** round to the nearest IEEE binary32 number, ties to even; overflow is not modelled *)
Definition rnd32 (x : R) : R := round radix2 (FLT_exp (-149) 24) ZnearestE x.

(** latitude of row r of the northern hemisphere as a program computes it that rounds every result with [rnd]:
    pi, number of intervals, spacing, spacing times (r - 1) *)
Definition computed_latitude (rnd : R -> R) (D : fluxdims R) (r : nat) : R :=
  rnd (rnd (rnd PI / rnd (INR (jmax D - 1))) * rnd (INR (r - 1))).

(** numbers of latitudes: grids with 2^s intervals, and the usual ones of 2.5, 2, 1.5, 1.25, 1, 0.75, 0.5 and 0.25 degrees *)
Definition usual_number_of_latitudes (n : nat) : Prop :=
  (exists s, (1 <= s <= 20)%nat /\ n = (2 ^ s + 1)%nat) \/ In n [73; 91; 121; 145; 181; 241; 361; 721]%nat.

(** along longitude i at level k, PV equals Qref(j) in every row of the northern hemisphere but the pole, where it is lower by more than [d] *)
Definition low_at_the_pole_only (D : fluxdims R) (pv : arr3 R) (qref : arr2 R) (d : R) (i j k : nat) : Prop :=
  (forall r, (1 <= r < nd D)%nat -> pv i (field_row D r) k = qref j k) /\ pv i (field_row D (nd D)) k <= qref j k - d.
(** the same on the southern hemisphere, whose row 1 is the pole: PV equals Qref(j) everywhere but at the pole, where it is higher *)
Definition high_at_the_south_pole_only (D : fluxdims R) (pv : arr3 R) (qref : arr2 R) (d : R) (i j k : nat) : Prop :=
  (forall r, (2 <= r <= nd D)%nat -> pv i (field_row D r) k = qref j k) /\ qref j k + d <= pv i (field_row D 1) k.

(** a rounding with relative error at most u, the standard model of floating point arithmetic without underflow and overflow *)
Definition relative_rounding (u : R) (rnd : R -> R) : Prop := 0 <= u < 1 /\ forall x, Rabs (rnd x - x) <= u * Rabs x.
(** y is x up to n relative errors u *)
Definition within (u : R) (n : nat) (x y : R) : Prop := (1 - u) ^ n * x <= y <= (1 + u) ^ n * x.
(** the same integral as [forcing_integral] of the size of the forcing over the displaced air: where vorticity exceeds Q(j) south of row j, or is below it north of row j *)
Definition forcing_size (nlat : nat) (vort : nat -> nat -> R) (q dmu : nat -> R) (f : nat -> nat -> R) (j i : nat) : R :=
  if Nat.eqb (S j) nlat then 0
  else Sum 0 (S j) (fun r => indic (Rlt_dec (q j) (vort r i)) * Rabs (f r i) * dmu r) + Sum (S j) nlat (fun r => indic (Rlt_dec (vort r i) (q j)) * Rabs (f r i) * dmu r).
