(** Specification vocabulary for the reference state solver: areas, contours, and the discrete elliptic problem
    of Nakamura & Solomon in difference form.  Only the record of scalar arguments is shared with the model. *)
From Verif Require Export Spec RefStates.
Open Scope R_scope.

Section RefStatesSpec.
  Variable P : rsdims R.

  (** a global grid from pole to pole whose row jd is the equator *)
  Definition pole_to_pole : Prop :=
    (3 <= s_jd P)%nat /\ s_nlat P = (2 * s_jd P - 1)%nat /\ (1 <= s_nlon P)%nat /\ (3 <= s_kmax P)%nat /\ (2 <= s_npart P)%nat /\
    s_dphi P * INR (s_jd P - 1) = PI / 2 /\ s_dlambda P * INR (s_nlon P) = 2 * PI.
  Definition physical (stat : nat -> R) : Prop :=
    0 < s_a P /\ 0 < s_om P /\ 0 < s_dz P /\ 0 < s_h P /\ 0 < s_r P /\ 0 < s_cp P /\ (forall k, (1 <= k <= s_kmax P)%nat -> 0 < stat k).

  (** latitude of row j of the hemisphere, and of row j of the globe *)
  Definition lat (j : nat) : R := s_dphi P * (INR j - 1).
  Definition global_lat (j : nat) : R := lat j - PI / 2.

  (** ** areas *)
  Definition grid_point (i j : nat) : Prop := (1 <= i <= s_nlon P)%nat /\ (1 <= j <= s_nlat P)%nat.
  Definition cell_area (j : nat) : R := (s_a P)² * s_dphi P * s_dlambda P * cos (global_lat j).
  (** total area of the cells whose value is in a set *)
  Definition area_of (x : arr3 R) (k : nat) (S : R -> bool) : R :=
    Sum 1 (s_nlat P + 1) (fun j => Sum 1 (s_nlon P + 1) (fun i => if S (x i j k) then cell_area j else 0)).
  Definition circulation_of (x : arr3 R) (k : nat) (S : R -> bool) : R :=
    Sum 1 (s_nlat P + 1) (fun j => Sum 1 (s_nlon P + 1) (fun i => if S (x i j k) then cell_area j * x i j k else 0)).
  Definition above (q x : R) : bool := if Rlt_dec q x then true else false.
  Definition between (q1 q2 x : R) : bool := if Rlt_dec q1 x then if Rle_dec x q2 then true else false else false.
  Definition at_most (q x : R) : bool := if Rle_dec x q then true else false.
  (** area of the polar cap north of row j *)
  Definition cap_area (j : nat) : R := 2 * PI * (s_a P)² * (1 - sin (lat j)).

  Definition level_max (x : arr3 R) (k : nat) (M : R) : Prop :=
    (forall i j, grid_point i j -> x i j k <= M) /\ exists i j, grid_point i j /\ x i j k = M.
  Definition level_min (x : arr3 R) (k : nat) (m : R) : Prop :=
    (forall i j, grid_point i j -> m <= x i j k) /\ exists i j, grid_point i j /\ x i j k = m.
  (** npart equidistant contours from M down to m *)
  Definition contour (M m : R) (nn : nat) : R := M - (INR nn - 1) * ((M - m) / (INR (s_npart P) - 1)).

  (** ** zonal and hemispheric means; row 1 is the equator *)
  Definition zonal (x : arr3 R) (j k : nat) : R := Sum 1 (s_nlon P + 1) (fun i => x i (j + s_jd P - 1)%nat k) / INR (s_nlon P).
  Definition hemispheric_mean (x : arr2 R) (k : nat) : R :=
    Sum 1 (s_jd P + 1) (fun j => cos (lat j) * x j k) / Sum 1 (s_jd P + 1) (fun j => cos (lat j)).

  (** ** the elliptic problem for w = u cos(lat) *)
  Definition inside (j k : nat) : Prop := (2 <= j <= s_jd P - 1)%nat /\ (2 <= k <= s_kmax P - 1)%nat.
  (** every point but the corner values of the equatorial and polar rows, which nothing uses *)
  Definition used_point (j k : nat) : Prop :=
    ((1 <= j <= s_jd P)%nat /\ (1 <= k <= s_kmax P)%nat) /\ (j = 1 \/ j = s_jd P -> 2 <= k <= s_kmax P - 1)%nat.
  Definition height (k : nat) : R := s_dz P * (INR k - 1).
  Definition density (stat : nat -> R) (k k' : nat) : R :=
    let z := (height k + height k') / 2 in exp (- (1 - s_r P / s_cp P) * z / s_h P) / ((stat k + stat k') / 2).
  Definition residual (stat : nat -> R) (q w : arr2 R) (j k : nat) : R :=
    let p := lat j + s_dphi P / 2 in let m := lat j - s_dphi P / 2 in
    (w (j + 1)%nat k - w j k) / (sin p * cos p) - (w j k - w (j - 1)%nat k) / (sin m * cos m)
    + 4 * (s_om P)² * s_h P * (s_a P)² * sin (lat j) * (s_dphi P)² / (s_r P * cos (lat j) * (s_dz P)²) * exp (height k / s_h P)
      * (density stat (k + 1) k * (w j (k + 1)%nat - w j k) - density stat (k - 1) k * (w j k - w j (k - 1)%nat))
    + s_om P * s_a P * s_dphi P * (q (j + 1)%nat k - q (j - 1)%nat k).
  Definition solves (stat : nat -> R) (q w : arr2 R) : Prop := forall j k, inside j k -> residual stat q w j k = 0.
  (** no slip at the ground, zero at the pole, given values at the equator, and at the top the vertical shear in thermal
      wind balance with a temperature t *)
  Definition boundary (w0 : nat -> R) (t w : arr2 R) : Prop :=
    (forall j, (2 <= j <= s_jd P - 1)%nat -> w j 1%nat = 0) /\
    (forall k, (2 <= k <= s_kmax P - 1)%nat -> w (s_jd P) k = 0 /\ w 1%nat k = w0 k) /\
    (forall j, (2 <= j <= s_jd P - 1)%nat ->
       (w j (s_kmax P) - w j (s_kmax P - 2)%nat) / (2 * s_dz P) * (2 * s_om P * sin (lat j))
       = - s_r P / s_h P * exp (- (s_r P / s_cp P) * height (s_kmax P - 1) / s_h P) * cos (lat j)
         * ((t (j + 1)%nat (s_kmax P - 1)%nat - t (j - 1)%nat (s_kmax P - 1)%nat) / (2 * s_dphi P * s_a P))).
  (** the points a sweep treats: every second one *)
  Definition colour (n j k : nat) : bool := Nat.eqb ((j + k) mod 2) (n mod 2).
  (** sums over the points of one colour, and over all of them *)
  Definition norm_colour (n : nat) (x : arr2 R) : R :=
    Sum 2 (s_jd P) (fun j => Sum 2 (s_kmax P) (fun k => if colour n j k then Rabs (x j k) else 0)).
  Definition norm_all (x : arr2 R) : R := Sum 2 (s_jd P) (fun j => Sum 2 (s_kmax P) (fun k => Rabs (x j k))).
  Definition forcing (q : arr2 R) (j k : nat) : R := s_om P * s_a P * s_dphi P * (q (j + 1)%nat k - q (j - 1)%nat k).
End RefStatesSpec.

(** ** the object: latitude of row J (1..nlat) of a global analysis grid with the equator in row eq *)
Definition regular (c : pconf R) (npart : nat) : Prop :=
  (3 <= p_eq c)%nat /\ (1 <= p_nlon c)%nat /\ (3 <= p_kmax c)%nat /\ (2 <= npart)%nat /\
  p_dphi c * INR (p_eq c - 1) = PI / 2 /\ p_dlambda c * INR (p_nlon c) = 2 * PI /\
  0 < p_a c /\ 0 < p_om c /\ 0 < p_dz c /\ 0 < p_h c /\ 0 < p_rr c /\ 0 < p_cp c.
Definition latitude (c : pconf R) (J : nat) : R := p_dphi c * (INR J - INR (p_eq c)).
Definition balanced (c : pconf R) (u t : arr2 R) (J : nat) (y : R) (k : nat) : Prop :=
  (t (J + 1)%nat k - t (J - 1)%nat k) / (2 * p_dphi c * p_a c)
  = - (2 * p_om c * sin y) * (p_h c / p_rr c) * exp (p_rr c / p_cp c * (p_dz c * (INR k - 1)) / p_h c)
    * ((u J (k + 1)%nat - u J (k - 1)%nat) / (2 * p_dz c)).
(** cos-weighted mean over a hemisphere of a zonal profile given from the equator to the pole *)
Definition cap_mean (c : pconf R) (x : nat -> R) : R :=
  Sum 1 (p_eq c + 1) (fun j => cos (p_dphi c * (INR j - 1)) * x j) / Sum 1 (p_eq c + 1) (fun j => cos (p_dphi c * (INR j - 1))).
Definition row_mean (c : pconf R) (x : arr3 R) (J k : nat) : R := Sum 1 (p_nlon c + 1) (fun i => x i J k) / INR (p_nlon c).

(** values and areas on the global analysis grid of the object *)
Definition field_max (c : pconf R) (x : arr3 R) (k : nat) (M : R) : Prop :=
  (forall i J, (1 <= i <= p_nlon c)%nat -> (1 <= J <= p_nlat c)%nat -> x i J k <= M) /\
  exists i J, (1 <= i <= p_nlon c)%nat /\ (1 <= J <= p_nlat c)%nat /\ x i J k = M.
Definition field_min (c : pconf R) (x : arr3 R) (k : nat) (m : R) : Prop :=
  (forall i J, (1 <= i <= p_nlon c)%nat -> (1 <= J <= p_nlat c)%nat -> m <= x i J k) /\
  exists i J, (1 <= i <= p_nlon c)%nat /\ (1 <= J <= p_nlat c)%nat /\ x i J k = m.
Definition area_where (c : pconf R) (x : arr3 R) (k : nat) (S : R -> bool) : R :=
  Sum 1 (p_nlat c + 1) (fun J => Sum 1 (p_nlon c + 1) (fun i =>
    if S (x i J k) then (p_a c)² * p_dphi c * p_dlambda c * cos (latitude c J) else 0)).
Definition north_of (c : pconf R) (J : nat) : R := 2 * PI * (p_a c)² * (1 - sin (latitude c J)).
Definition south_of (c : pconf R) (J : nat) : R := 2 * PI * (p_a c)² * (1 + sin (latitude c J)).
Definition below (q x : R) : bool := if Rlt_dec x q then true else false.
Definition at_least (q x : R) : bool := if Rle_dec q x then true else false.
