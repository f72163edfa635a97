(** Specification of barotropic local wave activity (Huang & Nakamura 2016, eq. 13, discretised):
    at row j and longitude i, the weighted excess of contours displaced across row j. *)
From Verif Require Import Spec.
Open Scope R_scope.

Section S.
  Variables (nlat : nat) (vort : nat -> nat -> R) (q dmu : nat -> R).

  (** low vorticity found north of row j *)
  Definition lwa_anticyclonic (j i : nat) : R :=
    if Nat.eqb (S j) nlat then 0 else Sum (S j) nlat (fun r => ppart (q j - vort r i) * dmu r).

  (** high vorticity found at or south of row j *)
  Definition lwa_cyclonic (j i : nat) : R :=
    if Nat.eqb (S j) nlat then 0 else Sum 0 (S j) (fun r => ppart (vort r i - q j) * dmu r).

  (** no contour of value q j is displaced across row j along longitude i *)
  Definition undisturbed (j i : nat) : Prop :=
    (forall r, (j < r < nlat)%nat -> q j <= vort r i) /\
    (forall r, (r <= j)%nat -> vort r i <= q j).

  (** line integral of a forcing over the displaced region *)
  Definition forcing_integral (f : nat -> nat -> R) (j i : nat) : R :=
    if Nat.eqb (S j) nlat then 0
    else Sum 0 (S j) (fun r => indic (Rlt_dec (q j) (vort r i)) * f r i * dmu r)
         - Sum (S j) nlat (fun r => indic (Rlt_dec (vort r i) (q j)) * f r i * dmu r).
End S.
