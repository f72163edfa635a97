(** Specification vocabulary for the direct inversion of QGFieldNHN22.  The elliptic operator is RefStatesSpec.residual. *)
From Verif Require Export RefStatesSpec DirInv.
Open Scope R_scope.

(** n x n matrices, indices 1..n *)
Definition apply (n : nat) (X : arr2 R) (v : nat -> R) (i : nat) : R := Sum 1 (n + 1) (fun m => X i m * v m).
Definition nonsingular (n : nat) (X : arr2 R) : Prop :=
  forall v, (forall i, (1 <= i <= n)%nat -> apply n X v i = 0) -> forall i, (1 <= i <= n)%nat -> v i = 0.
Definition right_inverse (n : nat) (X Y : arr2 R) : Prop :=
  forall i m, (1 <= i <= n)%nat -> (1 <= m <= n)%nat -> Sum 1 (n + 1) (fun l => X i l * Y l m) = if Nat.eqb i m then 1 else 0.
(** what LAPACK's factorisation and inversion do in exact arithmetic *)
Definition exact_inverse (inverse : nat -> arr2 R -> arr2 R) : Prop :=
  forall n X, nonsingular n X -> right_inverse n X (inverse n X).

Section DirInvSpec.
  Variable P : rsdims R.
  Variable jb : nat.
  (** the wind w = u cos(lat) on rows jb+1..jd of the hemisphere: the elliptic equation at every inner point, *)
  Definition inside_from (j k : nat) : Prop := (jb + 2 <= j <= s_jd P - 1)%nat /\ (2 <= k <= s_kmax P - 1)%nat.
  Definition solves_from (stat : nat -> R) (q w : arr2 R) : Prop := forall j k, inside_from j k -> residual P stat q w j k = 0.
  (** zero on the ground and at the pole, given values on the equatorward row, and at the top the one-sided vertical shear *)
  Definition boundary_from (w0 : nat -> R) (shear : nat -> R) (w : arr2 R) : Prop :=
    (forall j, (jb + 2 <= j <= s_jd P - 1)%nat -> w j 1%nat = 0) /\
    (forall k, (2 <= k <= s_kmax P - 1)%nat -> w (s_jd P) k = 0 /\ w (jb + 1)%nat k = w0 k) /\
    (forall j, (jb + 2 <= j <= s_jd P - 1)%nat -> (w j (s_kmax P) - w j (s_kmax P - 1)%nat) / s_dz P = shear j).
  (** thermal wind shear of w at row j and level k-1/2 when the temperature gradient is that of t around row r *)
  Definition thermal_shear (t : arr2 R) (j r : nat) : R :=
    - s_r P / s_h P * exp (- (s_r P / s_cp P) * height P (s_kmax P - 1) / s_h P) * cos (lat P j) / (2 * s_om P * sin (lat P j))
    * ((t (r + 1)%nat (s_kmax P) - t (r - 1)%nat (s_kmax P)) / (2 * s_dphi P * s_a P)).
  (** cos-weighted mean over rows jb+1..jd of a profile given on these rows (index 1 is row jb+1) *)
  Definition mean_from (x : nat -> R) : R :=
    Sum 1 (s_jd P - jb + 1) (fun j => cos (lat P (j + jb)) * x j) / Sum 1 (s_jd P - jb + 1) (fun j => cos (lat P (j + jb))).
  (** C is the circulation of the field x over the region of largest values whose area is the polar cap of row j, with linear
      interpolation in area between contours; areas and circulations are counted from the second contour *)
  Definition cap_circulation (x : arr3 R) (k : nat) (M m : R) (j : nat) (C : R) : Prop :=
    exists nn t, (1 <= nn <= s_npart P - 1)%nat /\ 0 <= t < 1 /\
      let area n := area_of P x k (RefStatesSpec.between (contour P M m (n + 1)) (contour P M m 2)) in
      let circulation n := circulation_of P x k (RefStatesSpec.between (contour P M m (n + 1)) (contour P M m 2)) in
      area nn * (1 - t) + area (nn + 1)%nat * t = cap_area P j /\
      C = circulation nn * (1 - t) + circulation (nn + 1)%nat * t.
End DirInvSpec.

(** ** the object.  Row of the reported arrays for row j = 1..eq (from the equator) of the northern / southern hemisphere *)
Definition north_row (c : pconf R) (j : nat) : nat := if p_nh c then j else (p_eq c - 1 + j)%nat.
Definition south_row (c : pconf R) (j : nat) : nat := (p_eq c + 1 - j)%nat.
(** w0 on level k is the wind belonging to the circulation of x over the cap of the boundary row, less the planetary rotation [rot] *)
Definition wind_of_circulation (P : rsdims R) (jb : nat) (rot : R) (x : arr3 R) (w0 : nat -> R) : Prop :=
  forall k M m, (2 <= k <= s_kmax P - 1)%nat -> level_max P x k M -> level_min P x k m -> m < M ->
    cap_area P (jb + 1) < area_of P x k (at_most (contour P M m 2)) ->
    exists C, cap_circulation P x k M m (jb + 1) C /\ w0 k = C / (2 * PI * s_a P) - rot.
(** the reference wind u on rows jb+1..eq is w / cos(lat) for a solution w of the elliptic equation with PV gradient q, whose values on
    the boundary row are w0 and whose shear at the top is sh *)
Definition inverts (P : rsdims R) (jb : nat) (stat : nat -> R) (q u : arr2 R) (w0 sh : nat -> R) : Prop :=
  exists w : arr2 R, solves_from P jb stat q w /\ boundary_from P jb w0 sh w /\
    forall j k, (jb + 2 <= j <= s_jd P - 1)%nat -> (1 <= k <= s_kmax P)%nat -> u j k = w j k / cos (lat P j).
