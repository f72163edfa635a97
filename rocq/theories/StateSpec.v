(** Specification vocabulary for the reference states of a whole session, on grids with an odd number of latitudes.  Rows are
    addressed as in FormulaSpec: hemisphere and number [d] of rows between them and the equator. *)
From Verif Require Export Spec ObjectSpec FormulaSpec.
Open Scope R_scope.

Section State.
  Variables (k : class) (w : qgargs).
  Definition physical_constants : Prop := 0 < w_a w /\ 0 < w_om w /\ 0 < w_H w /\ 0 < w_rr w /\ 0 < w_cp w /\ 0 < thickness w.
  Definition pole_to_pole_latitudes : Prop := forall row, (row < w_nlat w)%nat -> w_ylat w row = -90 + INR row * (180 / INR (w_nlat w - 1)).
  (** the equatorward boundary of the direct inversion leaves at least four rows *)
  Definition room : Prop := match k with NH18 => True | NHN22 b => (b + 3 <= half w)%nat end.

  (** ** Areas of sets of values of a field (row, longitude) *)
  Definition area_where (y : nat -> nat -> R) (P : R -> bool) : R :=
    Sum 0 (w_nlat w) (fun row => Sum 0 (w_nlon w) (fun i =>
      if P (y row i) then (w_a w)² * step w * (2 * PI / INR (w_nlon w)) * cos (row_lat w row) else 0)).
  (** area poleward of row [d] *)
  Definition cap (d : nat) : R := 2 * PI * (w_a w)² * (1 - sin (angle w d)).
  Definition exceeds (q x : R) : bool := if Rlt_dec q x then true else false.
  Definition up_to (q x : R) : bool := if Rle_dec x q then true else false.
  Definition within (q1 q2 x : R) : bool := if Rlt_dec q1 x then if Rle_dec x q2 then true else false else false.
  Definition greatest (y : nat -> nat -> R) (M : R) : Prop :=
    (forall row i, (row < w_nlat w)%nat -> (i < w_nlon w)%nat -> y row i <= M) /\ exists row i, (row < w_nlat w)%nat /\ (i < w_nlon w)%nat /\ y row i = M.
  Definition least (y : nat -> nat -> R) (m : R) : Prop :=
    (forall row i, (row < w_nlat w)%nat -> (i < w_nlon w)%nat -> m <= y row i) /\ exists row i, (row < w_nlat w)%nat /\ (i < w_nlon w)%nat /\ y row i = m.
  (** number of contours: the argument npart for QGFieldNH18, the number of latitudes otherwise *)
  Definition contours : nat := match k, w_npart w with NH18, Some p => p | _, _ => w_nlat w end.

  Definition circulation_where (y : nat -> nat -> R) (P : R -> bool) : R :=
    Sum 0 (w_nlat w) (fun row => Sum 0 (w_nlon w) (fun i =>
      if P (y row i) then (w_a w)² * step w * (2 * PI / INR (w_nlon w)) * cos (row_lat w row) * y row i else 0)).
  (** [C] is the integral of [y] over its largest values, as much of them as has the area of the cap of row [d]: linear interpolation in
      area between contours, areas and integrals counted from the second contour *)
  Definition cap_circulation (y : nat -> nat -> R) (M m : R) (d : nat) (C : R) : Prop :=
    let v n := M - INR n * ((M - m) / (INR contours - 1)) in
    exists n p, (1 <= n <= contours - 1)%nat /\ 0 <= p < 1 /\
      area_where y (within (v n) (v 1%nat)) * (1 - p) + area_where y (within (v (n + 1)%nat) (v 1%nat)) * p = cap d /\
      C = circulation_where y (within (v n) (v 1%nat)) * (1 - p) + circulation_where y (within (v (n + 1)%nat) (v 1%nat)) * p.
  (** the same for every inner level of a field on which the contours beyond the second leave room for the cap *)
  Definition circulates (y : nat -> nat -> nat -> R) (d : nat) (C : nat -> R) : Prop :=
    forall l M m, inner_level w l -> greatest (y l) M -> least (y l) m -> m < M ->
      cap d < area_where (y l) (up_to (M - (M - m) / (INR contours - 1))) -> cap_circulation (y l) M m d (C l).

  (** ** Hemispheric mean of a profile by distance from the equator, over rows [lo] to the pole *)
  Definition cap_mean (lo : nat) (x : nat -> R) : R := Sum lo (half w + 1) (fun d => cos (angle w d) * x d) / Sum lo (half w + 1) (fun d => cos (angle w d)).

  (** ** The elliptic equation for y = u cos(lat), by distance from the equator and level *)
  Definition density (s : nat -> R) (l l' : nat) : R :=
    exp (- (1 - w_rr w / w_cp w) * ((INR l * thickness w + INR l' * thickness w) / 2) / w_H w) / ((s l + s l') / 2).
  Definition forced (Q : nat -> nat -> R) (d l : nat) : R := w_om w * w_a w * step w * (Q (d + 1)%nat l - Q (d - 1)%nat l).
  Definition misfit (s : nat -> R) (Q y : nat -> nat -> R) (d l : nat) : R :=
    let p := angle w d + step w / 2 in let m := angle w d - step w / 2 in
    (y (d + 1)%nat l - y d l) / (sin p * cos p) - (y d l - y (d - 1)%nat l) / (sin m * cos m)
    + 4 * (w_om w)² * w_H w * (w_a w)² * sin (angle w d) * (step w)² / (w_rr w * cos (angle w d) * (thickness w)²) * exp (INR l * thickness w / w_H w)
      * (density s (l + 1) l * (y d (l + 1)%nat - y d l) - density s (l - 1) l * (y d l - y d (l - 1)%nat))
    + forced Q d l.
  (** northward-positive shear of y in thermal wind balance with the poleward temperature difference [dT] over two rows, at level [l] *)
  Definition balanced_shear (dT : R) (d l : nat) : R :=
    - (w_rr w / w_H w) * exp (- (w_rr w / w_cp w) * (INR l * thickness w) / w_H w) * cos (angle w d) / (2 * w_om w * sin (angle w d)) * (dT / (2 * step w * w_a w)).
  (** values of y on the ground, at the pole and on row [lo] *)
  Definition edges (lo : nat) (y : nat -> nat -> R) (E : nat -> R) : Prop :=
    (forall d, (lo < d < half w)%nat -> y d 0%nat = 0) /\ (forall l, inner_level w l -> y (half w) l = 0 /\ y lo l = E l).
  (** integral over the hemisphere of a zonal mean, by the midpoints between rows *)
  Definition hemisphere_integral (z : nat -> R) : R :=
    Sum 0 (half w) (fun d => (z d + z (d + 1)%nat) / 2 * (2 * PI * (w_a w)² * step w * cos (angle w d + step w / 2))).
  (** sums over the inner points, and over every second one of them *)
  Definition total (x : nat -> nat -> R) : R := Sum 1 (half w) (fun d => Sum 1 (result_levels w - 1) (fun l => Rabs (x d l))).
  Definition total_of (n : nat) (x : nat -> nat -> R) : R :=
    Sum 1 (half w) (fun d => Sum 1 (result_levels w - 1) (fun l => if Nat.eqb ((d + l) mod 2) (n mod 2) then Rabs (x d l) else 0)).
  Variable t : tables.
  (** reference PV over 2 Omega sin(lat); linear extrapolation on the equator *)
  Definition scaled_ref (north : bool) (d l : nat) : R :=
    let s d := pole_ref w t north l d / (2 * w_om w * sin (angle w d)) in if Nat.eqb d 0 then 2 * s 1%nat - s 2%nat else s d.
  (** potential vorticity, positive towards the pole *)
  Definition towards_pole (north : bool) (l row i : nat) : R := sign north * t_qgpv t l row i.
  Definition zonal_pv (north : bool) (l d : nat) : R := zonal_average w (towards_pole north l (grid_row w north d)).
  Definition zonal_theta (north : bool) (d l : nat) : R := zonal_average w (t_theta t l (grid_row w north d)).
  Definition zonal_u (north : bool) (d l : nat) : R := zonal_average w (t_u t l (grid_row w north d)).
  Definition ref_u (north : bool) (d l : nat) : R := t_uref t l (result_row w north d).
  Definition ref_theta (north : bool) (d l : nat) : R := t_ptref t l (result_row w north d).
  (** the reference wind is y / cos(lat) where y solves the elliptic equation for the reference PV up to the tolerance, summed over every second
      inner point, with the boundary values: the wind of the circulation on the equator, 0 at the pole and on the ground, thermal wind
      balance with the zonal mean potential temperature below the top *)
  Definition wind_within_tolerance (s : nat -> R) (north : bool) : Prop :=
    let top := (result_levels w - 1)%nat in
    exists (y : nat -> nat -> R) (E B : nat -> R) (n : nat),
      circulates (towards_pole north) 0 B /\
      (forall l, inner_level w l -> E l = zonal_u north 0 l + (B l - hemisphere_integral (zonal_pv north l)) / (2 * PI * w_a w)) /\
      edges 0 y E /\
      (forall d, (1 <= d < half w)%nat -> (y d top - y d (top - 2)%nat) / (2 * thickness w) = balanced_shear (zonal_theta north (d + 1) (top - 1) - zonal_theta north (d - 1) (top - 1)) d (top - 1)) /\
      (forall d l, (1 <= d < half w)%nat -> (l < result_levels w)%nat -> ref_u north d l = y d l / cos (angle w d)) /\
      total_of n (misfit s (scaled_ref north) y) < w_tol w * total (forced (scaled_ref north)).
End State.
