(** Specification vocabulary for equivalent latitude: plain mathematics of a gridded field. *)
From Verif Require Import Spec.
Open Scope R_scope.

(** smallest / largest value of a gridded field *)
Definition is_min (nlat nlon : nat) (f : nat -> nat -> R) (m : R) : Prop :=
  (exists j i, (j < nlat)%nat /\ (i < nlon)%nat /\ f j i = m) /\
  (forall j i, (j < nlat)%nat -> (i < nlon)%nat -> m <= f j i).
Definition is_max (nlat nlon : nat) (f : nat -> nat -> R) (m : R) : Prop :=
  (exists j i, (j < nlat)%nat /\ (i < nlon)%nat /\ f j i = m) /\
  (forall j i, (j < nlat)%nat -> (i < nlon)%nat -> f j i <= m).

(** area of the sphere of radius a *)
Definition sphere (a : R) : R := 4 * PI * a ^ 2.
(** area of the polar cap south of latitude phi (degrees) *)
Definition cap_area (a phi : R) : R := 2 * PI * a ^ 2 * (1 + sin (phi * PI / 180)).

(** grid total of a weight over the cells satisfying [v < q] *)
Definition total_below (nlat nlon : nat) (v w : nat -> nat -> R) (q : R) : R :=
  Sum 0 nlat (fun j => Sum 0 nlon (fun i => if Rlt_dec (v j i) q then w j i else 0)).
Definition total (nlat nlon : nat) (w : nat -> nat -> R) : R :=
  Sum 0 nlat (fun j => Sum 0 nlon (fun i => w j i)).

(** k-th of n equally spaced contour values from lo to hi *)
Definition contour (lo hi : R) (n k : nat) : R := lo + INR k * ((hi - lo) / INR (n - 1)).

(** latitude (degrees) south of which the sphere of radius a has area A *)
Definition latitude_of_area (a A : R) : R := asin (A / (2 * PI * a ^ 2) - 1) * (180 / PI).

(** list of (value, area) pairs of a grid *)
Definition grid_pairs (nlat nlon : nat) (v w : nat -> nat -> R) : list (R * R) :=
  map (fun p => (v (fst p) (snd p), w (fst p) (snd p))) (list_prod (seq 0 nlat) (seq 0 nlon)).

(** y is the value at x of the clamped piecewise linear curve through (xp k, fp k), k < n *)
Definition on_curve (n : nat) (xp fp : nat -> R) (x y : R) : Prop :=
  (x < xp 0%nat -> y = fp 0%nat) /\
  (xp (n - 1)%nat <= x -> y = fp (n - 1)%nat) /\
  (forall k, (S k < n)%nat -> xp k <= x < xp (S k) ->
     y = fp k + (fp (S k) - fp k) * ((x - xp k) / (xp (S k) - xp k))).
