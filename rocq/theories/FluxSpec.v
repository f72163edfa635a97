(** Specification vocabulary for the flux and LWA kernels: what the arrays are supposed to contain.
    Rows of a hemisphere are numbered 1..nd from its southern edge, levels 1..kmax from the ground. *)
From Verif Require Export Spec Flux.
From Coq Require Import String.
Open Scope R_scope.

Section FluxSpec.
  Variable D : fluxdims R.

  (** a global grid with [jmax] rows has two hemispheres of [nd] rows sharing the equator; the reference
      wind starts [jb] rows away from the equator and has [jd] rows *)
  Definition hemisphere_sizes : Prop :=
    (2 <= nd D)%nat /\ jmax D = (2 * nd D - 1)%nat /\ (jb D < nd D)%nat /\ jd D = (nd D - jb D)%nat /\ (1 <= imax D)%nat.

  Definition row_spacing : R := PI / INR (jmax D - 1).
  (** latitude of row r *)
  Definition latitude (r : nat) : R :=
    if is_nhem D then (INR r - 1) * row_spacing else (INR r - 1) * row_spacing - PI / 2.
  (** the row of the global field that is row r of the hemisphere *)
  Definition field_row (r : nat) : nat := if is_nhem D then (r + nd D - 1)%nat else r.
  (** meridional length element weighted with the cosine of latitude *)
  Definition element (r : nat) : R := f_a D * row_spacing * cos (latitude r).

  (** rows and levels for which the kernels compute something *)
  Definition analysed_row (j : nat) : Prop :=
    if is_nhem D then (jb D + 1 <= j <= nd D - 1)%nat else (2 <= j <= nd D - jb D)%nat.
  Definition interior_level (k : nat) : Prop := (2 <= k <= kmax D - 1)%nat.

  (** PV below Qref(j) found at or north of row j, and above Qref(j) south of it *)
  Definition low_pv_north (pv : arr3 R) (qref : arr2 R) (i j k : nat) : R :=
    Sum j (nd D + 1) (fun r => ppart (qref j k - pv i (field_row r) k) * element r).
  Definition high_pv_south (pv : arr3 R) (qref : arr2 R) (i j k : nat) : R :=
    Sum 1 j (fun r => ppart (pv i (field_row r) k - qref j k) * element r).

  (** integral of g over the parcels displaced across row j, counted positive where PV is high *)
  Definition displaced (pv : arr3 R) (qref : arr2 R) (i j k : nat) (g : nat -> R) : R :=
    Sum 1 j (fun r => if Rlt_dec (qref j k) (pv i (field_row r) k) then g r else 0)
    - Sum j (nd D + 1) (fun r => if Rle_dec (pv i (field_row r) k) (qref j k) then g r else 0).

  (** eddy momentum flux (u - uref) v cos^2 at row r, given the reference wind there *)
  Definition momentum_flux (uu vv : arr3 R) (uref_r : R) (i r k : nat) : R :=
    (uu i (field_row r) k - uref_r) * vv i (field_row r) k * (cos (latitude r))².
End FluxSpec.

(** an array reference (name, declared extents, subscripts) is inside the array *)
Definition in_bounds (x : string * list nat * list Z) : Prop :=
  Forall2 (fun n z => (1 <= z <= Z.of_nat n)%Z) (snd (fst x)) (snd x).
