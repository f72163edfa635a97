(** Specification vocabulary for the legacy solver: the discretised elliptic equation of Nakamura and Solomon (2010)
    on rows of equal spacing in the sine of latitude. *)
From Verif Require Export Spec.
Open Scope R_scope.

(** the solver has jm rows between the equator (row 0) and the pole (row jm + 1) *)
Definition sine (jm r : nat) : R := INR r / INR (jm + 1).
Definition cosine (jm r : nat) : R := sqrt (1 - sine jm r * sine jm r).
Definition degrees (jm r : nat) : R := asin (sine jm r) * 180 / PI.
Definition coriolis (jm r : nat) : R := 2 * (729 / 10000000) * sine jm r.

(** w is the value at v of the broken line through the points (x i, y i), i < n *)
Definition on_broken_line (n : nat) (x y : nat -> R) (v w : R) : Prop :=
  exists i, (S i < n)%nat /\ x i <= v <= x (S i) /\ w = y i + (y (S i) - y i) * (v - x i) / (x (S i) - x i).

(** U vanishes at the equator and at the pole *)
Definition zero_edges (jm kmax : nat) (U : nat -> nat -> R) : Prop := forall k, (k < kmax)%nat -> U 0%nat k = 0 /\ U (S jm) k = 0.
(** second difference in latitude plus weighted second difference in height equal the source *)
Definition elliptic (jm kmax : nat) (wt : R) (eps : nat -> nat -> R) (source : nat -> nat -> R) (U : nat -> nat -> R) : Prop :=
  forall r k, (1 <= r <= jm)%nat -> (1 <= k)%nat -> (S k < kmax)%nat ->
    U (r + 1)%nat k - 2 * U r k + U (r - 1)%nat k +
    wt * (exp (- (1 / 14)) * eps r k * (U r (k + 1)%nat - U r k) - exp (1 / 14) * eps r (k - 1)%nat * (U r k - U r (k - 1)%nat)) = source r k.
Definition top_condition (jm kmax : nat) (top : nat -> R) (U : nat -> nat -> R) : Prop :=
  forall r, (1 <= r <= jm)%nat -> U r (kmax - 1)%nat - U r (kmax - 3)%nat = top r.
Definition no_slip (jm : nat) (bottom : nat -> R) (U : nat -> nat -> R) : Prop := forall r, (1 <= r <= jm)%nat -> U r 0%nat = bottom r.
Definition adiabatic (jm : nat) (bottom : nat -> R) (U : nat -> nat -> R) : Prop := forall r, (1 <= r <= jm)%nat -> U r 2%nat - U r 0%nat = bottom r.

(** two fields agree on the solver's rows and levels *)
Definition same (jm kmax : nat) (U V : nat -> nat -> R) : Prop := forall r k, (r <= S jm)%nat -> (k < kmax)%nat -> U r k = V r k.

(** as [on_broken_line], the first and last piece being extended beyond the ends *)
Definition on_extended_line (n : nat) (x y : nat -> R) (v w : R) : Prop :=
  exists i, (S i < n)%nat /\ (x i <= v \/ i = 0%nat) /\ (v <= x (S i) \/ S i = (n - 1)%nat) /\ w = y i + (y (S i) - y i) * (v - x i) / (x (S i) - x i).

(** a linear solver is exact: for a matrix whose homogeneous system has only the zero solution it returns the solution *)
Definition regular (n : nat) (M : nat -> nat -> R) : Prop :=
  forall x, (forall i, (i < n)%nat -> Sum 0 n (fun j => M i j * x j) = 0) -> forall j, (j < n)%nat -> x j = 0.
Definition exact_solver (solve : nat -> (nat -> nat -> R) -> (nat -> R) -> nat -> R) : Prop :=
  forall n M b, regular n M -> forall i, (i < n)%nat -> Sum 0 n (fun j => M i j * solve n M b j) = b i.

(** ** the problem solved for the reference state
    E, A, Z, D, B0, B1: static-stability factor, wave activity, zonal-mean wind, potential-temperature contrast and surface
    wave activities on the solver's rows *)
(** wave activity over the Coriolis parameter; zero at the equator and the pole *)
Definition over_f (jm : nat) (A : nat -> nat -> R) (r k : nat) : R := if (Nat.leb 1 r && Nat.leb r jm)%bool then A r k / coriolis jm r else 0.
Definition source (jm : nat) (A : nat -> nat -> R) (r k : nat) : R := - (over_f jm A (r + 1) k - 2 * over_f jm A r k + over_f jm A (r - 1) k).
Definition spacing (jm : nat) : R := 1 / INR (jm + 1).
Definition kappa : R := 287 / 1004.
Definition top_value (jm kmax : nat) (D : nat -> R) (r : nat) : R :=
  - 287 * cosine jm r * cosine jm r * exp (- kappa * (INR kmax - 2) / 7) * (D (r + 1)%nat - D (r - 1)%nat)
    / (coriolis jm r * coriolis jm r * 6378000 * 7000 * (spacing jm / 1000)).
Definition adiabatic_value (jm : nat) (B0 B1 : nat -> R) (r : nat) : R :=
  let c := - 287 * cosine jm r * cosine jm r * 2 * 1000 / (coriolis jm r * coriolis jm r * (6378000 * 6378000) * 7000 * (spacing jm * spacing jm)) in
  c * (B1 (r - 1)%nat - 2 * B1 r + B1 (r + 1)%nat) * exp (- kappa / 7) + c * (B0 (r - 1)%nat - 2 * B0 r + B0 (r + 1)%nat).
Definition noslip_value (jm : nat) (Z : nat -> nat -> R) (r : nat) : R := Z r 0%nat * cosine jm r / coriolis jm r.
Definition solves (jm kmax : nat) (E A : nat -> nat -> R) (D : nat -> R) (U : nat -> nat -> R) : Prop :=
  zero_edges jm kmax U /\ elliptic jm kmax (spacing jm / 1000 * (spacing jm / 1000)) E (source jm A) U /\ top_condition jm kmax (top_value jm kmax D) U.
(** the wind that belongs to U; zero at the equator and the pole *)
Definition wind (jm : nat) (U : nat -> nat -> R) (r k : nat) : R := if (Nat.leb 1 r && Nat.leb r jm)%bool then U r k * coriolis jm r / cosine jm r else 0.

(** thermal wind between rows r - 1 and r + 1 at level k: a temperature contrast T against the shear of the wind u in row r *)
Definition thermal_wind (jm : nat) (f c : R) (T u : nat -> nat -> R) (r k : nat) : Prop :=
  T (r + 1)%nat k - T (r - 1)%nat k = - f * 6378000 * 7000 * (spacing jm / 1000) / (287 * c) * (u r (k + 1)%nat - u r (k - 1)%nat).
