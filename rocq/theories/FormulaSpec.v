(** Specification vocabulary for formulas between the arguments and the results of a session, on grids with an odd number of
    latitudes.  Rows are addressed by hemisphere and by the number [d] of rows between them and the equator. *)
From Verif Require Export Spec ObjectSpec.
Open Scope R_scope.

(** the arrays obtained from a session whose properties can all be read *)
Record tables := {
  t_qgpv : field3; t_u : field3; t_v : field3; t_theta : field3;
  t_qref : nat -> nat -> R; t_uref : nat -> nat -> R; t_ptref : nat -> nat -> R;
  t_f1 : nat -> nat -> R; t_f2 : nat -> nat -> R; t_f3 : nat -> nat -> R; t_conv : nat -> nat -> R; t_div : nat -> nat -> R; t_heat : nat -> nat -> R;
  t_lambda : nat -> nat -> R; t_phi : nat -> nat -> R; t_lwa_baro : nat -> nat -> R; t_u_baro : nat -> nat -> R; t_nc_baro : nat -> nat -> R;
  t_lwa : field3; t_ua1 : field3; t_ua2 : field3; t_ep1 : field3; t_ep2 : field3; t_ep3 : field3; t_stretch : field3 }.
Definition reads (x : outputs) (t : tables) : Prop :=
  out_qgpv x = Done (t_qgpv t) /\ out_u x = Done (t_u t) /\ out_v x = Done (t_v t) /\ out_theta x = Done (t_theta t) /\
  out_qref x = Done (t_qref t) /\ out_uref x = Done (t_uref t) /\ out_ptref x = Done (t_ptref t) /\
  out_f1 x = Done (t_f1 t) /\ out_f2 x = Done (t_f2 t) /\ out_f3 x = Done (t_f3 t) /\ out_conv x = Done (t_conv t) /\ out_div x = Done (t_div t) /\
  out_heat x = Done (t_heat t) /\ out_lambda x = Done (t_lambda t) /\ out_phi x = Done (t_phi t) /\
  out_lwa_baro x = Done (t_lwa_baro t) /\ out_u_baro x = Done (t_u_baro t) /\ out_nc_baro x = Done (t_nc_baro t) /\ out_lwa x = Done (t_lwa t) /\
  out_ua1 x = Done (t_ua1 t) /\ out_ua2 x = Done (t_ua2 t) /\ out_ep1 x = Done (t_ep1 t) /\ out_ep2 x = Done (t_ep2 t) /\ out_ep3 x = Done (t_ep3 t) /\
  out_stretch x = Done (t_stretch t).

Section Formulas.
  Variables (k : class) (w : qgargs).

  (** ** Rows *)
  Definition half : nat := (w_nlat w / 2)%nat.                     (* row of the equator *)
  Definition sign (north : bool) : R := if north then 1 else -1.
  (** row of a (nlev, nlat, nlon) field, and row of a result *)
  Definition grid_row (north : bool) (d : nat) : nat := if north then (half + d)%nat else (half - d)%nat.
  Definition result_row (north : bool) (d : nat) : nat := if w_nh w then d else grid_row north d.
  (** the rows for which there are results; with both hemispheres, the results on the equator are those of the southern one *)
  Definition reported (north : bool) (d : nat) : Prop := (d <= half)%nat /\ if w_nh w then north = true else north = true -> (1 <= d)%nat.
  (** rows and levels in which wave activity is computed *)
  Definition wave_row (d : nat) : Prop := (boundary k <= d < half)%nat.
  Definition inner_level (l : nat) : Prop := (1 <= l)%nat /\ (l + 2 <= result_levels w)%nat.

  (** rows are taken as equally spaced from pole to pole *)
  Definition step : R := PI / INR (w_nlat w - 1).
  Definition angle (d : nat) : R := INR d * step.                  (* latitude of row d, towards the pole *)
  Definition arc (d : nat) : R := w_a w * step * cos (angle d).

  (** ** Displaced air: [q] is the PV by distance from the equator, positive towards the pole, [Q] the reference value at row [d] *)
  Definition contour (q : nat -> R) (Q : R) (d : nat) : R :=
    Sum 0 d (fun d' => ppart (q d' - Q) * arc d') + Sum d (half + 1) (fun d' => ppart (Q - q d') * arc d').
  Definition across (q : nat -> R) (Q : R) (d : nat) (g : nat -> R) : R :=
    Sum 0 d (fun d' => if Rlt_dec Q (q d') then g d' else 0) - Sum d (half + 1) (fun d' => if Rle_dec (q d') Q then g d' else 0).

  (** ** Vertical spacing and mean: levels above the lowest, weighted with exp(-z/H) *)
  Definition thickness : R := if w_evenly w then data_height w 1 - data_height w 0 else w_dz w.
  Definition vertical_mean (y : nat -> R) : R :=
    Sum 1 (result_levels w) (fun l => y l * exp (- result_height w l / w_H w) * thickness)
    / (thickness * Sum 1 (result_levels w - 1) (fun l => exp (- (INR l * thickness) / w_H w))).

  (** ** Hemispheric means of potential temperature at the data levels, then at the levels of the results *)
  Definition weight (row : nat) : R := Rabs (cos (w_ylat w row * PI / 180)).
  Definition mean_over (rows : nat -> nat) (y : nat -> nat -> R) : R :=
    let m := (half + 1 - boundary k)%nat in
    Sum 0 m (fun r => Sum 0 (w_nlon w) (fun i => y (rows r) i * weight (rows r)) / INR (w_nlon w)) / Sum 0 m weight.
  Definition mean_of (north : bool) (l : nat) : R :=
    mean_over (fun r => if north then (half + boundary k + r)%nat else r) (theta_data w l).
  Variable lib : library.
  Definition smooth (spl : nat -> (nat -> R) -> (nat -> R) -> R -> R) (north : bool) (l : nat) : R :=
    let s b := spl (w_nlev w) (data_height w) (mean_of b) (result_height w l) in
    match k with NH18 => / 2 * (s false + s true) | NHN22 _ => s north end.
  (** domain mean of potential temperature, and its vertical derivative *)
  Definition t_mean (north : bool) : nat -> R := smooth (lb_spline lib) north.
  Definition t_slope (north : bool) : nat -> R := smooth (lb_dspline lib) north.

  (** that of the hemisphere, and the mean of both at the equator *)
  Definition stability (north : bool) (d l : nat) : R :=
    if Nat.eqb d 0 then / 2 * (t_slope false l + t_slope true l) else t_slope north l.

  (** ** Vorticity and stretching of fields (row, longitude), (level) *)
  Definition eastward (i : nat) : nat := ((i + 1) mod w_nlon w)%nat.
  Definition westward (i : nat) : nat := ((i + w_nlon w - 1) mod w_nlon w)%nat.
  Definition row_lat (row : nat) : R := - PI / 2 + INR row * step.
  (** the same spacing is used in both directions *)
  Definition vorticity_inside (u v : nat -> nat -> R) (row i : nat) : R :=
    2 * w_om w * sin (row_lat row) + (v row (eastward i) - v row (westward i)) / (2 * w_a w * cos (row_lat row) * step)
    - (u (row + 1)%nat i * cos (row_lat (row + 1)) - u (row - 1)%nat i * cos (row_lat (row - 1))) / (2 * w_a w * cos (row_lat row) * step).
  Definition zonal_average (y : nat -> R) : R := Sum 0 (w_nlon w) y / INR (w_nlon w).
  (** the poles get the mean of the next row *)
  Definition vorticity (u v : nat -> nat -> R) (row i : nat) : R :=
    if Nat.eqb row 0 then zonal_average (vorticity_inside u v 1)
    else if Nat.eqb row (w_nlat w - 1) then zonal_average (vorticity_inside u v (w_nlat w - 2)) else vorticity_inside u v row i.
  Definition stretching_of (theta t0 slope : nat -> R) (l : nat) : R :=
    let g l := exp (- result_height w l / w_H w) * (theta l - t0 l) / slope l in
    exp (result_height w l / w_H w) * ((g (l + 1)%nat - g (l - 1)%nat) / (result_height w (l + 1) - result_height w (l - 1))).
  (** eddy momentum flux at a row of the grid, given the reference wind there *)
  Definition momentum (u v U : R) (d : nat) : R := (u - U) * v * (cos (angle d))².
  (** vertical derivative: centred, one-sided at the ends *)
  Definition vertical_derivative (y : nat -> R) (l : nat) : R :=
    let m := result_levels w in
    if Nat.eqb l (m - 1) then (y (m - 1)%nat - y (m - 2)%nat) / thickness else if Nat.eqb l 0 then (y 1%nat - y 0%nat) / thickness
    else (y (l + 1)%nat - y (l - 1)%nat) / (2 * thickness).

  (** ** The tables by distance from the equator: PV counted positive towards the pole, and the momentum flux *)
  Variable t : tables.
  Definition pole_pv (north : bool) (l i d : nat) : R := sign north * t_qgpv t l (grid_row north d) i.
  Definition pole_ref (north : bool) (l d : nat) : R := sign north * t_qref t l (result_row north d).
  Definition flux_at (north : bool) (d l i : nat) : R :=
    momentum (t_u t l (grid_row north d) i) (t_v t l (grid_row north d) i) (t_uref t l (result_row north d)) d.
End Formulas.
