(** Specification vocabulary for whole QGField objects: inputs and outputs as the user sees them. *)
From Verif Require Export Object.
Open Scope R_scope.

(** two runs end alike: both return, and the results are related by [P], or both raise the same exception *)
Definition outcome {T} (P : T -> T -> Prop) (x y : res T) : Prop :=
  match x, y with Done a, Done b => P a b | Raise e, Raise f => e = f | _, _ => False end.
(** a run that returns something with [P] *)
Definition gives {T} (x : res T) (P : T -> Prop) : Prop := match x with Done a => P a | Raise _ => False end.

(** latitudes in ascending order: an even number without the equator, or an odd number with the equator in the middle *)
Definition balanced_latitudes (n : nat) (ylat : nat -> R) : Prop :=
  (4 <= n)%nat /\ (forall j, (S j < n)%nat -> ylat j < ylat (S j)) /\
  (Nat.even n = true /\ (forall j, (j < n)%nat -> ylat j <> 0) \/ Nat.even n = false /\ ylat (n / 2)%nat = 0).
(** sizes the computations need: three levels, two longitudes, an equatorward boundary inside the hemisphere, two contours *)
Definition usable (k : class) (w : qgargs) : Prop :=
  balanced_latitudes (w_nlat w) (w_ylat w) /\ (2 <= w_nlon w)%nat /\ (3 <= if w_evenly w then w_nlev w else w_kmax w)%nat /\
  (boundary k <= w_nlat w / 2)%nat /\ match w_npart w with Some p => (2 <= p)%nat | None => True end.

(** number of latitude rows of the results *)
Definition result_rows (w : qgargs) : nat :=
  if w_nh w then if Nat.even (w_nlat w) then (w_nlat w / 2)%nat else (w_nlat w / 2 + 1)%nat else w_nlat w.
Definition result_levels (w : qgargs) : nat := if w_evenly w then w_nlev w else w_kmax w.

(** the same arguments with other data *)
Definition with_data (w : qgargs) (u v t : field3) : qgargs :=
  {| w_nlon := w_nlon w; w_nlat := w_nlat w; w_nlev := w_nlev w; w_ylat := w_ylat w; w_plev := w_plev w; w_u := u; w_v := v; w_t := t;
     w_kmax := w_kmax w; w_maxit := w_maxit w; w_dz := w_dz w; w_npart := w_npart w; w_tol := w_tol w; w_rjac := w_rjac w;
     w_H := w_H w; w_cp := w_cp w; w_rr := w_rr w; w_om := w_om w; w_a := w_a w; w_nh := w_nh w; w_evenly := w_evenly w |}.
(** the same arguments with the other setting of northern_hemisphere_results_only *)
Definition with_mode (w : qgargs) (nh : bool) : qgargs :=
  {| w_nlon := w_nlon w; w_nlat := w_nlat w; w_nlev := w_nlev w; w_ylat := w_ylat w; w_plev := w_plev w; w_u := w_u w; w_v := w_v w; w_t := w_t w;
     w_kmax := w_kmax w; w_maxit := w_maxit w; w_dz := w_dz w; w_npart := w_npart w; w_tol := w_tol w; w_rjac := w_rjac w;
     w_H := w_H w; w_cp := w_cp w; w_rr := w_rr w; w_om := w_om w; w_a := w_a w; w_nh := nh; w_evenly := w_evenly w |}.

(** ** Longitudes relabelled: np.roll(x, -s, axis=-1) *)
Section Rolled.
  Variables (w : qgargs) (s : nat).
  Definition rolled_input (m n : nat) (x x' : field3) : Prop :=
    forall l j i, (l < m)%nat -> (j < n)%nat -> (i < w_nlon w)%nat -> x' l j i = x l j ((i + s) mod w_nlon w)%nat.
  Definition rolled_map (x x' : nat -> nat -> R) : Prop :=
    forall row i, (row < result_rows w)%nat -> (i < w_nlon w)%nat -> x' row i = x row ((i + s) mod w_nlon w)%nat.
  Definition rolled_field (n : nat) (x x' : field3) : Prop :=
    forall k row i, (k < result_levels w)%nat -> (row < n)%nat -> (i < w_nlon w)%nat -> x' k row i = x k row ((i + s) mod w_nlon w)%nat.
  Definition same_table (x x' : nat -> nat -> R) : Prop :=
    forall k row, (k < result_levels w)%nat -> (row < result_rows w)%nat -> x' k row = x k row.
  Definition rolled_outputs (x x' : outputs) : Prop :=
    outcome (rolled_field (w_nlat w)) (out_qgpv x) (out_qgpv x') /\ outcome (rolled_field (w_nlat w)) (out_u x) (out_u x') /\
    outcome (rolled_field (w_nlat w)) (out_v x) (out_v x') /\ outcome (rolled_field (w_nlat w)) (out_theta x) (out_theta x') /\
    out_stat_n x' = out_stat_n x /\ out_stat_s x' = out_stat_s x /\
    outcome same_table (out_qref x) (out_qref x') /\ outcome same_table (out_uref x) (out_uref x') /\ outcome same_table (out_ptref x) (out_ptref x') /\
    outcome rolled_map (out_f1 x) (out_f1 x') /\ outcome rolled_map (out_f2 x) (out_f2 x') /\ outcome rolled_map (out_f3 x) (out_f3 x') /\
    outcome rolled_map (out_conv x) (out_conv x') /\ outcome rolled_map (out_div x) (out_div x') /\ outcome rolled_map (out_heat x) (out_heat x') /\
    outcome rolled_map (out_lambda x) (out_lambda x') /\ outcome rolled_map (out_phi x) (out_phi x') /\
    outcome rolled_map (out_lwa_baro x) (out_lwa_baro x') /\ outcome rolled_map (out_u_baro x) (out_u_baro x') /\ outcome rolled_map (out_nc_baro x) (out_nc_baro x') /\
    outcome (rolled_field (result_rows w)) (out_lwa x) (out_lwa x') /\
    outcome (rolled_field (result_rows w)) (out_ua1 x) (out_ua1 x') /\ outcome (rolled_field (result_rows w)) (out_ua2 x) (out_ua2 x') /\
    outcome (rolled_field (result_rows w)) (out_ep1 x) (out_ep1 x') /\ outcome (rolled_field (result_rows w)) (out_ep2 x) (out_ep2 x') /\
    outcome (rolled_field (result_rows w)) (out_ep3 x) (out_ep3 x') /\ outcome (rolled_field (result_rows w)) (out_stretch x) (out_stretch x').
End Rolled.
(** rows of the analysis grid, which the argument ncforce has to have *)
Definition analysis_rows (w : qgargs) : nat := if Nat.even (w_nlat w) then (w_nlat w + 1)%nat else w_nlat w.

(** the smoothing spline is a function of the points it is given *)
Definition data_only (lib : library) : Prop :=
  (forall m x y y' h, (forall l, (l < m)%nat -> y' l = y l) -> lb_spline lib m x y' h = lb_spline lib m x y h) /\
  (forall m x y y' h, (forall l, (l < m)%nat -> y' l = y l) -> lb_dspline lib m x y' h = lb_dspline lib m x y h).

(** ** Mirror image about the equator: latitudes reversed, v and the heating also with the other sign *)
Definition symmetric_latitudes (w : qgargs) : Prop := forall j, (j < w_nlat w)%nat -> w_ylat w (w_nlat w - 1 - j)%nat = - w_ylat w j.
Section Mirrored.
  Variable w : qgargs.
  Definition mirrored_input (sg : R) (m n : nat) (x x' : field3) : Prop :=
    forall l j i, (l < m)%nat -> (j < n)%nat -> (i < w_nlon w)%nat -> x' l j i = sg * x l (n - 1 - j)%nat i.
  (** off the equator; on a grid without the equator: not between the two rows of the analysis grid next to it *)
  Definition away (row : nat) : Prop := if Nat.even (w_nlat w) then 180 / INR (w_nlat w) <= Rabs (w_ylat w row) else w_ylat w row <> 0.
  Definition mirrored_map (sg : R) (x x' : nat -> nat -> R) : Prop :=
    forall row i, (row < w_nlat w)%nat -> (i < w_nlon w)%nat -> away row -> x' row i = sg * x (w_nlat w - 1 - row)%nat i.
  Definition mirrored_field (sg : R) (x x' : field3) : Prop :=
    forall k row i, (k < result_levels w)%nat -> (row < w_nlat w)%nat -> (i < w_nlon w)%nat -> away row -> x' k row i = sg * x k (w_nlat w - 1 - row)%nat i.
  Definition mirrored_everywhere (sg : R) (x x' : field3) : Prop :=
    forall k row i, (k < result_levels w)%nat -> (row < w_nlat w)%nat -> (i < w_nlon w)%nat -> x' k row i = sg * x k (w_nlat w - 1 - row)%nat i.
  Definition mirrored_table (sg : R) (x x' : nat -> nat -> R) : Prop :=
    forall k row, (k < result_levels w)%nat -> (row < w_nlat w)%nat -> away row -> x' k row = sg * x k (w_nlat w - 1 - row)%nat.
  Definition both {T} (P : T -> T -> Prop) (x y : res T) : Prop := match x, y with Done a, Done b => P a b | _, _ => False end.
  (** QGPV, v, the reference PV and the meridional flux change sign; the momentum fluxes on the two sides of a row also change places *)
  Definition mirrored_outputs (x x' : outputs) : Prop :=
    both (mirrored_everywhere (-1)) (out_qgpv x) (out_qgpv x') /\ both (mirrored_everywhere 1) (out_u x) (out_u x') /\
    both (mirrored_everywhere (-1)) (out_v x) (out_v x') /\ both (mirrored_everywhere 1) (out_theta x) (out_theta x') /\
    out_stat_n x' = out_stat_s x /\ out_stat_s x' = out_stat_n x /\
    both (mirrored_table (-1)) (out_qref x) (out_qref x') /\ both (mirrored_table 1) (out_uref x) (out_uref x') /\ both (mirrored_table 1) (out_ptref x) (out_ptref x') /\
    both (mirrored_map 1) (out_f1 x) (out_f1 x') /\ both (mirrored_map 1) (out_f2 x) (out_f2 x') /\ both (mirrored_map 1) (out_f3 x) (out_f3 x') /\
    both (mirrored_map 1) (out_conv x) (out_conv x') /\ both (mirrored_map 1) (out_div x) (out_div x') /\ both (mirrored_map 1) (out_heat x) (out_heat x') /\
    both (mirrored_map 1) (out_lambda x) (out_lambda x') /\ both (mirrored_map (-1)) (out_phi x) (out_phi x') /\
    both (mirrored_map 1) (out_lwa_baro x) (out_lwa_baro x') /\ both (mirrored_map 1) (out_u_baro x) (out_u_baro x') /\ both (mirrored_map 1) (out_nc_baro x) (out_nc_baro x') /\
    both (mirrored_field 1) (out_lwa x) (out_lwa x') /\
    both (mirrored_field 1) (out_ua1 x) (out_ua1 x') /\ both (mirrored_field 1) (out_ua2 x) (out_ua2 x') /\ both (mirrored_field 1) (out_ep1 x) (out_ep1 x') /\
    both (mirrored_field (-1)) (out_ep3 x) (out_ep2 x') /\ both (mirrored_field (-1)) (out_ep2 x) (out_ep3 x') /\ both (mirrored_field 1) (out_stretch x) (out_stretch x').
  (** the part of it that QGFieldNHN22 keeps *)
  Definition mirrored_activity (x x' : outputs) : Prop :=
    both (mirrored_everywhere (-1)) (out_qgpv x) (out_qgpv x') /\ both (mirrored_everywhere 1) (out_u x) (out_u x') /\
    both (mirrored_everywhere (-1)) (out_v x) (out_v x') /\ both (mirrored_everywhere 1) (out_theta x) (out_theta x') /\
    out_stat_n x' = out_stat_s x /\ out_stat_s x' = out_stat_n x /\ both (mirrored_table (-1)) (out_qref x) (out_qref x') /\
    both (mirrored_map 1) (out_lwa_baro x) (out_lwa_baro x') /\ both (mirrored_map 1) (out_u_baro x) (out_u_baro x') /\ both (mirrored_map 1) (out_nc_baro x) (out_nc_baro x') /\
    both (mirrored_field 1) (out_lwa x) (out_lwa x').
End Mirrored.

(** ** One hemisphere or both: row r of a northern-only result is row nlat/2 + r of the latitudes *)
Section Modes.
  Variable w : qgargs.
  Definition northern_rows : nat := result_rows (with_mode w true).
  Definition same_map (x1 x0 : nat -> nat -> R) : Prop :=
    forall r i, (r < northern_rows)%nat -> (i < w_nlon w)%nat -> away w (w_nlat w / 2 + r) -> x1 r i = x0 (w_nlat w / 2 + r)%nat i.
  Definition same_field (x1 x0 : field3) : Prop :=
    forall k r i, (k < result_levels w)%nat -> (r < northern_rows)%nat -> (i < w_nlon w)%nat -> away w (w_nlat w / 2 + r) -> x1 k r i = x0 k (w_nlat w / 2 + r)%nat i.
  Definition same_profile_rows (x1 x0 : nat -> nat -> R) : Prop :=
    forall k r, (k < result_levels w)%nat -> (r < northern_rows)%nat -> away w (w_nlat w / 2 + r) -> x1 k r = x0 k (w_nlat w / 2 + r)%nat.
  Definition same_northern_outputs (x1 x0 : outputs) : Prop :=
    out_stat_n x1 = out_stat_n x0 /\ out_stat_s x1 = out_stat_s x0 /\
    both same_profile_rows (out_qref x1) (out_qref x0) /\ both same_profile_rows (out_uref x1) (out_uref x0) /\ both same_profile_rows (out_ptref x1) (out_ptref x0) /\
    both same_map (out_f1 x1) (out_f1 x0) /\ both same_map (out_f2 x1) (out_f2 x0) /\ both same_map (out_f3 x1) (out_f3 x0) /\
    both same_map (out_conv x1) (out_conv x0) /\ both same_map (out_div x1) (out_div x0) /\ both same_map (out_heat x1) (out_heat x0) /\
    both same_map (out_lambda x1) (out_lambda x0) /\ both same_map (out_phi x1) (out_phi x0) /\
    both same_map (out_lwa_baro x1) (out_lwa_baro x0) /\ both same_map (out_u_baro x1) (out_u_baro x0) /\ both same_map (out_nc_baro x1) (out_nc_baro x0) /\
    both same_field (out_lwa x1) (out_lwa x0) /\ both same_field (out_ua1 x1) (out_ua1 x0) /\ both same_field (out_ua2 x1) (out_ua2 x0) /\
    both same_field (out_ep1 x1) (out_ep1 x0) /\ both same_field (out_ep2 x1) (out_ep2 x0) /\ both same_field (out_ep3 x1) (out_ep3 x0) /\
    both same_field (out_stretch x1) (out_stretch x0).
End Modes.

(** ** Which arguments are accepted *)
(** at least two levels; if they are interpolated, pressure must not increase at the bottom and the top must be high enough *)
Definition accepted_levels (w : qgargs) : Prop :=
  (2 <= w_nlev w)%nat /\
  (w_evenly w = false -> w_plev w 1%nat <= w_plev w 0%nat /\ (INR (w_kmax w) - 1) * w_dz w <= data_height w (w_nlev w - 1)).
(** every result can be read *)
Definition returned {T} (x : res T) : Prop := exists y, x = Done y.
Definition all_returned (x : outputs) : Prop :=
  returned (out_qgpv x) /\ returned (out_u x) /\ returned (out_v x) /\ returned (out_theta x) /\
  returned (out_qref x) /\ returned (out_uref x) /\ returned (out_ptref x) /\ returned (out_f1 x) /\ returned (out_f2 x) /\ returned (out_f3 x) /\
  returned (out_conv x) /\ returned (out_div x) /\ returned (out_heat x) /\ returned (out_lambda x) /\ returned (out_phi x) /\
  returned (out_lwa_baro x) /\ returned (out_u_baro x) /\ returned (out_nc_baro x) /\ returned (out_lwa x) /\
  returned (out_ua1 x) /\ returned (out_ua2 x) /\ returned (out_ep1 x) /\ returned (out_ep2 x) /\ returned (out_ep3 x) /\ returned (out_stretch x).

(** ** Other expectations *)
(** latitudes with a constant step of [d] degrees *)
Definition uniform_latitudes (w : qgargs) (d : R) : Prop := forall j, (S j < w_nlat w)%nat -> w_ylat w (S j) - w_ylat w j = d.
(** the levels are in ascending height *)
Definition descending_pressure (w : qgargs) : Prop := 0 < w_H w /\ forall l, (S l < w_nlev w)%nat -> 0 < w_plev w (S l) < w_plev w l.
(** height of level [k] of the results *)
Definition result_height (w : qgargs) (k : nat) : R := if w_evenly w then data_height w k else INR k * w_dz w.
(** latitude [y] of row [row] of the analysis: the given rows, or nlat + 1 rows from pole to pole *)
Definition analysis_latitude (w : qgargs) (row : nat) : R := if Nat.even (w_nlat w) then -90 + INR row * (180 / INR (w_nlat w)) else w_ylat w row.
