(** Specification for C196: the same atmosphere with a constant added to its potential temperature. *)
From Verif Require Export InfluenceSpec.
Open Scope R_scope.

(** the temperatures for which the potential temperature T exp(kappa z / H) is larger by [b] everywhere *)
Definition warmer (b : R) (w : qgargs) : qgargs :=
  with_data w (w_u w) (w_v w) (fun z y x => w_t w z y x + b * exp (- (w_rr w / w_cp w * (- w_H w * ln (w_plev w z / 1000)) / w_H w))).
(** adding a constant to the fitted values adds it to the fitted curve, and leaves its slope alone: least squares splines, smoothed or not *)
Definition offset_free (b : R) (lib : library) : Prop :=
  (forall n x y z, lb_spline lib n x (fun i => y i + b) z = lb_spline lib n x y z + b) /\
  (forall n x y z, lb_dspline lib n x (fun i => y i + b) z = lb_dspline lib n x y z).

(** two fields (level, row, longitude) of [w] that differ by the constant [b] *)
Definition differ_by (b : R) (w : qgargs) (x y : field3) : Prop :=
  forall z row i, (z < result_levels w)%nat -> (row < w_nlat w)%nat -> (i < w_nlon w)%nat -> y z row i = x z row i + b.
(** winds, static stabilities and barotropic wind are the same, the potential vorticity too at every grid point, and the potential temperature is larger by [b] *)
Definition warmer_fields (b : R) (w : qgargs) (x y : outputs) : Prop :=
  outcome (differ_by b w) (out_theta x) (out_theta y) /\ outcome (differ_by 0 w) (out_qgpv x) (out_qgpv y) /\
  out_u x = out_u y /\ out_v x = out_v y /\ out_stat_n x = out_stat_n y /\ out_stat_s x = out_stat_s y /\ out_u_baro x = out_u_baro y.

(** the reference wind, the advective fluxes F1 and F2, the momentum fluxes and the meridional component of the flux vector are the same *)
Definition same_wind_terms (x y : outputs) : Prop :=
  out_uref x = out_uref y /\ out_f1 x = out_f1 y /\ out_f2 x = out_f2 y /\ out_div x = out_div y /\ out_phi x = out_phi y /\
  out_ua1 x = out_ua1 y /\ out_ua2 x = out_ua2 y /\ out_ep2 x = out_ep2 y /\ out_ep3 x = out_ep3 y.
(** results that contain temperature anomalies are the same at every grid point: F3, the heat flux at the bottom, the zonal component of the flux vector and its
    convergence, and F3 layer by layer *)
Definition same_map_on_grid (w : qgargs) (x y : nat -> nat -> R) : Prop := forall row i, (row < result_rows w)%nat -> (i < w_nlon w)%nat -> y row i = x row i.
Definition same_field_on_grid (w : qgargs) (x y : field3) : Prop :=
  forall z row i, (z < result_levels w)%nat -> (row < result_rows w)%nat -> (i < w_nlon w)%nat -> y z row i = x z row i.
Definition same_heat_terms (w : qgargs) (x y : outputs) : Prop :=
  outcome (same_map_on_grid w) (out_f3 x) (out_f3 y) /\ outcome (same_map_on_grid w) (out_heat x) (out_heat y) /\
  outcome (same_map_on_grid w) (out_lambda x) (out_lambda y) /\ outcome (same_map_on_grid w) (out_conv x) (out_conv y) /\
  outcome (same_field_on_grid w) (out_ep1 x) (out_ep1 y).
(** the reference temperature is larger by [b] *)
Definition warmer_reference (b : R) (w : qgargs) (x y : outputs) : Prop :=
  outcome (fun p p' => forall z row, (z < result_levels w)%nat -> (row < result_rows w)%nat -> p' z row = p z row + b) (out_ptref x) (out_ptref y).
