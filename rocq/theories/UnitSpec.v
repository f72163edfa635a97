(** Specification for C182 and C195: the same atmosphere described in other units.  One old unit of time is 1/c new ones turned round: rates are multiplied by c;
    one old unit of length is l new ones: lengths are multiplied by l; one old unit of
    temperature is kt new ones: temperatures are multiplied by kt.  Pressures and angles keep their units. *)
From Verif Require Export Session.
Open Scope R_scope.

(** the arguments of the constructors: winds m/s, heights m, gas constant and heat capacity J/(kg K) = m^2/(s^2 K), rotation 1/s, radius m *)
Definition in_units (c l kt : R) (w : qgargs) : qgargs :=
  {| w_nlon := w_nlon w; w_nlat := w_nlat w; w_nlev := w_nlev w; w_ylat := w_ylat w; w_plev := w_plev w;
     w_u := fun z y x => l * c * w_u w z y x; w_v := fun z y x => l * c * w_v w z y x; w_t := fun z y x => kt * w_t w z y x;
     w_kmax := w_kmax w; w_maxit := w_maxit w; w_dz := l * w_dz w; w_npart := w_npart w; w_tol := w_tol w; w_rjac := w_rjac w;
     w_H := l * w_H w; w_cp := l * l * c * c * / kt * w_cp w; w_rr := l * l * c * c * / kt * w_rr w; w_om := c * w_om w; w_a := l * w_a w;
     w_nh := w_nh w; w_evenly := w_evenly w |}.
(** the non-conservative force on potential vorticity, 1/s^2 *)
Definition force_in_units (c : R) (nc : field3) : field3 := fun z y x => c * c * nc z y x.

(** results: an exception stays the same exception *)
Definition map_in (q : R) (x : res (nat -> nat -> R)) : res (nat -> nat -> R) :=
  match x with Done y => Done (fun a b => q * y a b) | Raise e => Raise e end.
Definition field_in (q : R) (x : res field3) : res field3 :=
  match x with Done y => Done (fun z a b => q * y z a b) | Raise e => Raise e end.
Definition results_in (c l kt : R) (x : outputs) : outputs :=
  let velocity := l * c in let flux := l * l * c * c in let tendency := l * c * c in
  {| out_qgpv := field_in c (out_qgpv x); out_u := field_in velocity (out_u x); out_v := field_in velocity (out_v x); out_theta := field_in kt (out_theta x);
     out_stat_n := fun k => / l * kt * out_stat_n x k; out_stat_s := fun k => / l * kt * out_stat_s x k;
     out_qref := map_in c (out_qref x); out_uref := map_in velocity (out_uref x); out_ptref := map_in kt (out_ptref x);
     out_f1 := map_in flux (out_f1 x); out_f2 := map_in flux (out_f2 x); out_f3 := map_in flux (out_f3 x);
     out_conv := map_in tendency (out_conv x); out_div := map_in tendency (out_div x); out_heat := map_in tendency (out_heat x);
     out_lambda := map_in flux (out_lambda x); out_phi := map_in flux (out_phi x);
     out_lwa_baro := map_in velocity (out_lwa_baro x); out_u_baro := map_in velocity (out_u_baro x); out_nc_baro := map_in tendency (out_nc_baro x);
     out_lwa := field_in velocity (out_lwa x);
     out_ua1 := field_in flux (out_ua1 x); out_ua2 := field_in flux (out_ua2 x); out_ep1 := field_in flux (out_ep1 x);
     out_ep2 := field_in flux (out_ep2 x); out_ep3 := field_in flux (out_ep3 x); out_stretch := field_in tendency (out_stretch x) |}.
Definition lwa_results_in (c l kt : R) (x : lwa_outputs) : lwa_outputs :=
  {| lo_qref := map_in c (lo_qref x); lo_uref := map_in (l * c) (lo_uref x); lo_ptref := map_in kt (lo_ptref x);
     lo_lwa_baro := map_in (l * c) (lo_lwa_baro x); lo_u_baro := map_in (l * c) (lo_u_baro x); lo_lwa := field_in (l * c) (lo_lwa x) |}.
(** a session stops at the same call with the same exception, or returns the same results in the new units *)
Definition ending_in {T : Type} (f : T -> T) (x : ending T) : ending T := match x with Returned y => Returned (f y) | Stopped s e => Stopped s e end.

(** the splines do not know the unit of length: fitting the same values at heights in other units gives the same curve *)
Definition length_free (l : R) (lib : library) : Prop :=
  (forall n x y z, lb_spline lib n (fun i => l * x i) y (l * z) = lb_spline lib n x y z) /\
  (forall n x y z, lb_dspline lib n (fun i => l * x i) y (l * z) = / l * lb_dspline lib n x y z).
(** the splines know neither the unit of length nor that of temperature: fitting the same temperatures at the same heights, both in other units, gives the same curve.
    True of interpolating splines.  The code leaves the smoothing of scipy's UnivariateSpline at its default, a bound of n (squared units of temperature) on the
    residuals at n levels (oopinterface.py:257-260): then it holds for kt = 1, and for other kt only when that bound selects the same knots *)
Definition unit_free (l kt : R) (lib : library) : Prop :=
  (forall n x y z, lb_spline lib n (fun i => l * x i) (fun i => kt * y i) (l * z) = kt * lb_spline lib n x y z) /\
  (forall n x y z, lb_dspline lib n (fun i => l * x i) (fun i => kt * y i) (l * z) = / l * kt * lb_dspline lib n x y z).
(** uninitialised memory that QGFieldNH18 may read as circulations (C99 says when): its contents in the new units *)
Definition memory_in (c l : R) (lib : library) : library :=
  {| lb_spline := lb_spline lib; lb_dspline := lb_dspline lib; lb_inverse := lb_inverse lib;
     lb_mem1 := fun j k => l * l * c * lb_mem1 lib j k; lb_mem2 := fun j k => l * l * c * lb_mem2 lib j k |}.
(** all results but the convergence of the zonal flux, which is replaced by [y] *)
Definition set_conv (y : res (nat -> nat -> R)) (x : outputs) : outputs :=
  {| out_qgpv := out_qgpv x; out_u := out_u x; out_v := out_v x; out_theta := out_theta x; out_stat_n := out_stat_n x; out_stat_s := out_stat_s x;
     out_qref := out_qref x; out_uref := out_uref x; out_ptref := out_ptref x; out_f1 := out_f1 x; out_f2 := out_f2 x; out_f3 := out_f3 x;
     out_conv := y; out_div := out_div x; out_heat := out_heat x; out_lambda := out_lambda x; out_phi := out_phi x;
     out_lwa_baro := out_lwa_baro x; out_u_baro := out_u_baro x; out_nc_baro := out_nc_baro x; out_lwa := out_lwa x;
     out_ua1 := out_ua1 x; out_ua2 := out_ua2 x; out_ep1 := out_ep1 x; out_ep2 := out_ep2 x; out_ep3 := out_ep3 x; out_stretch := out_stretch x |}.
