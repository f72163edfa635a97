(** Vocabulary of C178: arguments changed one at a time, and groups of results. *)
From Verif Require Export ObjectSpec Session.
Open Scope R_scope.

(** the same arguments with other settings of the iterative solver (maxit, tol, rjac), of the number of contours (npart), of the vertical grid (kmax, dz) *)
Definition with_settings (w : qgargs) (kmax maxit : nat) (dz : R) (npart : option nat) (tol rjac : R) : qgargs :=
  {| w_nlon := w_nlon w; w_nlat := w_nlat w; w_nlev := w_nlev w; w_ylat := w_ylat w; w_plev := w_plev w; w_u := w_u w; w_v := w_v w; w_t := w_t w;
     w_kmax := kmax; w_maxit := maxit; w_dz := dz; w_npart := npart; w_tol := tol; w_rjac := rjac;
     w_H := w_H w; w_cp := w_cp w; w_rr := w_rr w; w_om := w_om w; w_a := w_a w; w_nh := w_nh w; w_evenly := w_evenly w |}.
Definition with_solver (w : qgargs) (maxit : nat) (tol rjac : R) : qgargs := with_settings w (w_kmax w) maxit (w_dz w) (w_npart w) tol rjac.
Definition with_contours (w : qgargs) (npart : option nat) : qgargs := with_settings w (w_kmax w) (w_maxit w) (w_dz w) npart (w_tol w) (w_rjac w).
Definition with_vertical (w : qgargs) (kmax : nat) (dz : R) : qgargs := with_settings w kmax (w_maxit w) dz (w_npart w) (w_tol w) (w_rjac w).

(** winds, potential temperature, stabilities, potential vorticity and barotropic wind *)
Definition same_fields (x y : outputs) : Prop :=
  out_qgpv x = out_qgpv y /\ out_u x = out_u y /\ out_v x = out_v y /\ out_theta x = out_theta y /\
  out_stat_n x = out_stat_n y /\ out_stat_s x = out_stat_s y /\ out_u_baro x = out_u_baro y.
(** reference potential vorticity and wave activity *)
Definition same_activity (x y : outputs) : Prop :=
  out_qref x = out_qref y /\ out_lwa x = out_lwa y /\ out_lwa_baro x = out_lwa_baro y.
(** reference wind and temperature and the fluxes *)
Definition same_fluxes (x y : outputs) : Prop :=
  out_uref x = out_uref y /\ out_ptref x = out_ptref y /\ out_f1 x = out_f1 y /\ out_f2 x = out_f2 y /\ out_f3 x = out_f3 y /\
  out_conv x = out_conv y /\ out_div x = out_div y /\ out_heat x = out_heat y /\ out_lambda x = out_lambda y /\ out_phi x = out_phi y /\
  out_ua1 x = out_ua1 y /\ out_ua2 x = out_ua2 y /\ out_ep1 x = out_ep1 y /\ out_ep2 x = out_ep2 y /\ out_ep3 x = out_ep3 y /\ out_stretch x = out_stretch y.
Definition same_forcing (x y : outputs) : Prop := out_nc_baro x = out_nc_baro y.

(** two sessions fail together, with the same exception, or succeed together with related results *)
Definition related (P : outputs -> outputs -> Prop) (r r' : res outputs) : Prop :=
  match r, r' with Done x, Done y => P x y | Raise e, Raise e' => e = e' | _, _ => False end.
