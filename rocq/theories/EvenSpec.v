(** Specification vocabulary for grids with an even number of latitudes: the session with one more row, and how its tables are read. *)
From Verif Require Export Spec ObjectSpec FormulaSpec.
Open Scope R_scope.

(** piecewise linear function through the points (x j, y j), j < n, continued beyond the ends: number of the segment of [v], value at [v] *)
Fixpoint segment (x : nat -> R) (v : R) (m j : nat) : nat :=
  match m with O => j | S m' => if Rle_dec v (x (S j)) then j else segment x v m' (S j) end.
Definition polyline (n : nat) (x y : nat -> R) (v : R) : R :=
  let j := segment x v (n - 2) 0 in y j + (v - x j) * ((y (S j) - y j) / (x (S j) - x j)).

(** n + 1 equally spaced latitudes from pole to pole *)
Definition full_latitude (n j : nat) : R := -90 + INR j * (180 / INR n).
(** the same arguments with winds and temperature interpolated to one more row *)
Definition one_more_row (w : qgargs) : qgargs :=
  let on (x : field3) : field3 := fun l j i => polyline (w_nlat w) (w_ylat w) (fun r => x l r i) (full_latitude (w_nlat w) j) in
  {| w_nlon := w_nlon w; w_nlat := S (w_nlat w); w_nlev := w_nlev w; w_ylat := full_latitude (w_nlat w); w_plev := w_plev w;
     w_u := on (w_u w); w_v := on (w_v w); w_t := on (w_t w);
     w_kmax := w_kmax w; w_maxit := w_maxit w; w_dz := w_dz w; w_npart := w_npart w; w_tol := w_tol w; w_rjac := w_rjac w;
     w_H := w_H w; w_cp := w_cp w; w_rr := w_rr w; w_om := w_om w; w_a := w_a w; w_nh := w_nh w; w_evenly := w_evenly w |}.

(** tables interpolated from the full latitudes to those of [w] *)
Section Reread.
  Variables (w : qgargs) (t : tables).
  Definition at_row (y : nat -> R) (row : nat) : R := polyline (S (w_nlat w)) (full_latitude (w_nlat w)) y (w_ylat w row).
  Definition reread_map (y : nat -> nat -> R) : nat -> nat -> R := fun row i => at_row (fun r => y r i) row.
  Definition reread_profile (y : nat -> nat -> R) : nat -> nat -> R := fun l row => at_row (y l) row.
  Definition reread_field (y : field3) : field3 := fun l row i => at_row (fun r => y l r i) row.
  Definition reread : tables :=
    {| t_qgpv := reread_field (t_qgpv t); t_u := reread_field (t_u t); t_v := reread_field (t_v t); t_theta := reread_field (t_theta t);
       t_qref := reread_profile (t_qref t); t_uref := reread_profile (t_uref t); t_ptref := reread_profile (t_ptref t);
       t_f1 := reread_map (t_f1 t); t_f2 := reread_map (t_f2 t); t_f3 := reread_map (t_f3 t); t_conv := reread_map (t_conv t); t_div := reread_map (t_div t);
       t_heat := reread_map (t_heat t); t_lambda := reread_map (t_lambda t); t_phi := reread_map (t_phi t); t_lwa_baro := reread_map (t_lwa_baro t);
       t_u_baro := reread_map (t_u_baro t); t_nc_baro := reread_map (t_nc_baro t); t_lwa := reread_field (t_lwa t); t_ua1 := reread_field (t_ua1 t);
       t_ua2 := reread_field (t_ua2 t); t_ep1 := reread_field (t_ep1 t); t_ep2 := reread_field (t_ep2 t); t_ep3 := reread_field (t_ep3 t);
       t_stretch := reread_field (t_stretch t) |}.
End Reread.
