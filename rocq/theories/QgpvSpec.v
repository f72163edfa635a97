(** Specification vocabulary for the QGPV routines: quantities on a global latitude-longitude grid with
    [nlat] rows from pole to pole and [nlon] equally spaced longitudes. *)
From Verif Require Export Spec Qgpv.
Open Scope R_scope.

Section QgpvSpec.
  Variables (nlon nlat : nat).
  Definition glat (j : nat) : R := - PI / 2 + PI * (INR j - 1) / INR (nlat - 1).
  Definition next_lon (i : nat) : nat := if Nat.eqb i nlon then 1%nat else (i + 1)%nat.
  Definition prev_lon (i : nat) : nat := if Nat.eqb i 1 then nlon else (i - 1)%nat.
  (** centred-difference absolute vorticity for given grid spacings *)
  Definition abs_vorticity (a omega dlambda dphi : R) (u v : arr3 R) (i j k : nat) : R :=
    2 * omega * sin (glat j)
    + (v (next_lon i) j k - v (prev_lon i) j k) / (2 * a * cos (glat j) * dlambda)
    - (u i (j + 1)%nat k * cos (glat (j + 1)) - u i (j - 1)%nat k * cos (glat (j - 1))) / (2 * a * cos (glat j) * dphi).
  Definition zonal_mean (x : arr3 R) (j k : nat) : R := Sum 1 (nlon + 1) (fun i => x i j k) / INR nlon.
  (** exp(z/H) d/dz [ exp(-z/H) (theta - t0) / stat ], centred *)
  Definition stretching (H : R) (height t0 stat : nat -> R) (theta : arr3 R) (i j k : nat) : R :=
    let g k' := exp (- height k' / H) * (theta i j k' - t0 k') / stat k' in
    exp (height k / H) * ((g (k + 1)%nat - g (k - 1)%nat) / (height (k + 1)%nat - height (k - 1)%nat)).
  (** reflection about the equator *)
  Definition mirror (x : arr3 R) : arr3 R := fun i j k => x i (nlat + 1 - j)%nat k.
  Definition negated (x : arr3 R) : arr3 R := fun i j k => - x i j k.
  (** relabelling of longitudes by one step *)
  Definition rotated (x : arr3 R) : arr3 R := fun i j k => x (next_lon i) j k.
End QgpvSpec.
