(** Model of a whole QGField object: from the arrays given to the constructor to the arrays read from its properties
    (/repo/src/falwa/oopinterface.py).  The pieces are those of Grid.v (grids), Pipeline.v (the computations), RefStates.v and
    DirInv.v (reference states); this file models how they are connected.

    Left out here: the flags of the computation methods and their exceptions except the one named at [session] (QGState.v), shapes of the three fields other than
    (nlev, nlat, nlon) (Grid.v), masked arrays with a mask (the data under the mask are used, oopinterface.py:273-279). *)
From Verif Require Export Grid Pipeline RefStates DirInv.
Open Scope R_scope.

(** arrays in python order: (level, row, longitude), 0-based *)
Definition field3 := nat -> nat -> nat -> R.

(** arguments of the constructors, oopinterface.py:93-97 and 1725-1730 *)
Record qgargs := {
  w_nlon : nat; w_nlat : nat; w_nlev : nat; w_ylat : nat -> R; w_plev : nat -> R;
  w_u : field3; w_v : field3; w_t : field3;
  w_kmax : nat; w_maxit : nat; w_dz : R; w_npart : option nat; w_tol : R; w_rjac : R;
  w_H : R; w_cp : R; w_rr : R; w_om : R; w_a : R; w_nh : bool; w_evenly : bool }.
Inductive class := NH18 | NHN22 (eq_boundary_index : nat).
(** oopinterface.py:160 and 1735 *)
Definition boundary (k : class) : nat := match k with NH18 => O | NHN22 b => b end.

(** routines of other packages, and the uninitialised memory read by the NH18 solver *)
Record library := {
  lb_spline : nat -> (nat -> R) -> (nat -> R) -> R -> R;   (* UnivariateSpline(x, y) on n points, at a height *)
  lb_dspline : nat -> (nat -> R) -> (nat -> R) -> R -> R;  (* its derivative() *)
  lb_inverse : nat -> arr2 R -> arr2 R;                    (* LAPACK's inverse of an n x n matrix *)
  lb_mem1 : arr2 R; lb_mem2 : arr2 R }.

(** _plev_to_height, oopinterface.py:110 and 118 *)
Definition data_height (w : qgargs) (l : nat) : R := plev_to_height (w_H w) (w_plev w l).
(** theta_field, oopinterface.py:125-126 *)
Definition theta_data (w : qgargs) : field3 := fun l j i => w_t w l j i * exp (w_rr w / w_cp w * data_height w l / w_H w).

Record qgobj := { ob_grid : grid; ob_conf : pconf R; ob_u : field3; ob_v : field3; ob_theta : field3 }.

(** interpolation to the analysis latitudes, oopinterface.py:146-157.  scipy sorts the latitudes; the model takes them ascending. *)
Definition to_analysis (w : qgargs) (lat : latgrid R) (x : field3) : field3 := fun l j i =>
  if lg_need lat then interp1d (w_nlat w) (w_ylat w) (fun r => x l r i) (lg_ylat lat j) else x l j i.

(** the attributes used by the computations.  clat: oopinterface.py:342; jd: 161 and 1736; tol is the default of zonal_convergence,
    utilities.py:7 *)
Definition conf_of (k : class) (w : qgargs) (g : grid) : pconf R :=
  let lat := g_lat g in
  {| p_nlon := g_nlon g; p_nlat := lg_n lat; p_kmax := g_kmax g; p_eq := lg_eq lat; p_jb := boundary k;
     p_jd := (lg_n lat / 2 + lg_n lat mod 2 - boundary k)%nat; p_nh := g_nh g;
     p_a := w_a w; p_om := w_om w; p_dz := g_dz g; p_h := w_H w; p_rr := w_rr w; p_cp := w_cp w; p_prefac := g_prefactor g;
     p_dphi := g_dphi g; p_dlambda := g_dlambda g; p_tol := 1 / 100000;
     p_height := g_height g; p_ylat := lg_ylat lat; p_clat := fun j => Rabs (cos (deg2rad (lg_ylat lat j))) |}.

(** the constructors, oopinterface.py:93-187 and 1725-1736: the checks and derived numbers, then the attributes *)
Definition grid_of (w : qgargs) : res grid :=
  let shape := [w_nlev w; w_nlat w; w_nlon w] in
  qg_init (w_nlon w) (w_nlat w) (w_ylat w) (w_nlev w) (w_plev w) shape shape shape (w_kmax w) (w_dz w) (w_npart w) (w_H w) (w_nh w) (w_evenly w).
Definition object_of (k : class) (w : qgargs) (g : grid) : qgobj :=
  {| ob_grid := g; ob_conf := conf_of k w g; ob_u := to_analysis w (g_lat g) (w_u w); ob_v := to_analysis w (g_lat g) (w_v w);
     ob_theta := to_analysis w (g_lat g) (theta_data w) |}.
Definition create (k : class) (w : qgargs) : res qgobj :=
  match grid_of w with Raise e => Raise e | Done g => Done (object_of k w g) end.

(** _vertical_interpolation, oopinterface.py:537-540, and the switch in 510-522.  scipy sorts the heights; the model takes them ascending. *)
Definition vertical_interpolation (w : qgargs) (g : grid) (x : field3) : field3 := fun k j i =>
  interp1d (w_nlev w) (data_height w) (fun l => x l j i) (g_height g k).
Definition to_levels (w : qgargs) (g : grid) (x : field3) : field3 := if w_evenly w then x else vertical_interpolation w g x.
(** np.swapaxes(x, 0, 2), as a 1-based Fortran array *)
Definition stored (x : field3) : arr3 R := fun i j k => x (k - 1)%nat (j - 1)%nat (i - 1)%nat.
Definition interpolated (w : qgargs) (o : qgobj) : fields R :=
  {| u_ := stored (to_levels w (ob_grid o) (ob_u o)); v_ := stored (to_levels w (ob_grid o) (ob_v o)); theta_ := stored (to_levels w (ob_grid o) (ob_theta o)) |}.

(** DomainAverageStorage after interpolate_fields, oopinterface.py:241-261, 531-534, 1567-1572 and 1743-1746.  The averages at the data levels
    are taken by _compute_static_stability_func with the attribute _jd *)
Definition domain (lib : library) (k : class) (w : qgargs) (o : qgobj) : averages R :=
  let at_levels (spl : nat -> (nat -> R) -> (nat -> R) -> R -> R) := fun y l => spl (w_nlev w) (data_height w) y (g_height (ob_grid o) l) in
  match k with
  | NH18 => domain_nh18 (ob_conf o) (at_levels (lb_spline lib)) (at_levels (lb_dspline lib)) (ob_theta o)
  | NHN22 _ => domain_nhn22 (ob_conf o) (at_levels (lb_spline lib)) (at_levels (lb_dspline lib)) (ob_theta o)
  end.

(** everything stored by interpolate_fields, compute_reference_states, compute_lwa_and_barotropic_fluxes, compute_layerwise_lwa_fluxes;
    [s_only] is what compute_lwa_only stores in place of the barotropic terms *)
Record stores := { s_f : fields R; s_av : averages R; s_q : arr3 R; s_refs : refstate R; s_baro : baro R; s_layer : layerwise R; s_only : lwaonly R;
  s_div : arr2 R; s_conv : arr2 R; s_lambda : arr2 R; s_phi : arr2 R; s_stretch : option (arr3 R) }.
(** QGFieldNH18: 1563-1631 and 1671-1675; QGFieldNHN22: 1738-1866.  [nc] is the argument ncforce (kmax, rows of the analysis, nlon); zeros for None,
    900-905.  The reference states start from np.zeros, data_storage.py:157-170. *)
Definition analyse (lib : library) (k : class) (w : qgargs) (o : qgobj) (nc : field3) : stores :=
  let c := ob_conf o in let f := interpolated w o in let av := domain lib k w o in
  let q := match k with NH18 => pv_nh18 c f av | NHN22 _ => pv_nhn22 c f av end in
  let r := match k with
           | NH18 => refs_nh18 c (nh18_solver c (g_npart (ob_grid o)) (w_maxit w) (w_tol w) (w_rjac w) (stat_n av) (lb_mem1 lib) (lb_mem2 lib)) q f zero_refs
           | NHN22 _ => refs_nhn22 c (nhn22_inversion c (lb_inverse lib) (tn0 av)) q (avort_nhn22 c f) f av zero_refs
           end in
  let n := north_args c q f (stored nc) av r in let s := south_args c q f (stored nc) av r in
  let b := barotropic_terms c n s in
  {| s_f := f; s_av := av; s_q := q; s_refs := r; s_baro := b; s_layer := layerwise_terms c n s; s_only := lwa_only c q f r;
     s_div := div_momentum_flux c b; s_conv := conv_zonal_flux c b; s_lambda := zonal_flux b; s_phi := flux_vector_phi c f r; s_stretch := stretch_term c f av r |}.

(** ** Reading *)

(** _return_interp_variables applied to each longitude or level of an array with [m] rows: the check of the number of rows is that of the first column *)
Definition each (f : nat -> res (nat -> R)) : res (nat -> nat -> R) :=
  match f O with Raise e => Raise e | Done _ => Done (fun row i => match f i with Done y => y row | Raise _ => 0 end) end.
Definition back (w : qgargs) (o : qgobj) (m : nat) (x : nat -> R) : res (nat -> R) :=
  return_interp (w_nh w) (w_nlat w) (w_ylat w) (g_lat (ob_grid o)) m x.
(** maps (row, longitude), profiles (level, row), layered maps (level, row, longitude).  fortran_to_python is np.swapaxes *)
Definition read_map (w : qgargs) (o : qgobj) (m : nat) (x : arr2 R) : res (nat -> nat -> R) := each (fun i => back w o m (fun r => x (i + 1)%nat (r + 1)%nat)).
Definition read_profile (w : qgargs) (o : qgobj) (m : nat) (x : arr2 R) : res (nat -> nat -> R) :=
  match each (fun k => back w o m (fun r => x (r + 1)%nat (k + 1)%nat)) with Raise e => Raise e | Done y => Done (fun k row => y row k) end.
Definition read_field (w : qgargs) (o : qgobj) (m : nat) (x : arr3 R) : res field3 :=
  match read_map w o m (fun i j => x i j 1%nat) with
  | Raise e => Raise e
  | Done _ => Done (fun k row i => match read_map w o m (fun i j => x i j (k + 1)%nat) with Done y => y row i | Raise _ => 0 end)
  end.

(** the properties of the object, oopinterface.py:1226-1515, and the two static stabilities *)
Record outputs := {
  out_qgpv : res field3; out_u : res field3; out_v : res field3; out_theta : res field3;
  out_stat_n : nat -> R; out_stat_s : nat -> R;
  out_qref : res (nat -> nat -> R); out_uref : res (nat -> nat -> R); out_ptref : res (nat -> nat -> R);
  out_f1 : res (nat -> nat -> R); out_f2 : res (nat -> nat -> R); out_f3 : res (nat -> nat -> R);
  out_conv : res (nat -> nat -> R); out_div : res (nat -> nat -> R); out_heat : res (nat -> nat -> R);
  out_lambda : res (nat -> nat -> R); out_phi : res (nat -> nat -> R);
  out_lwa_baro : res (nat -> nat -> R); out_u_baro : res (nat -> nat -> R); out_nc_baro : res (nat -> nat -> R); out_lwa : res field3;
  out_ua1 : res field3; out_ua2 : res field3; out_ep1 : res field3; out_ep2 : res field3; out_ep3 : res field3; out_stretch : res field3 }.
(** [lwa] is read after compute_lwa_and_barotropic_fluxes; stretch_term_nhem is full_result[:, -equator_idx:, :], 1058-1061 *)
Definition read (w : qgargs) (o : qgobj) (x : stores) : outputs :=
  let c := ob_conf o in let m := rows c in let n := p_nlat c in let b := s_baro x in let l := s_layer x in
  {| out_qgpv := read_field w o n (s_q x); out_u := read_field w o n (u_ (s_f x)); out_v := read_field w o n (v_ (s_f x)); out_theta := read_field w o n (theta_ (s_f x));
     out_stat_n := stat_n (s_av x); out_stat_s := stat_s (s_av x);
     out_qref := read_profile w o m (qref_correct_unit c (s_refs x)); out_uref := read_profile w o m (uref_ (s_refs x)); out_ptref := read_profile w o m (ptref_ (s_refs x));
     out_f1 := read_map w o m (b_ua1 b); out_f2 := read_map w o m (b_ua2 b); out_f3 := read_map w o m (b_ep1 b);
     out_conv := read_map w o m (s_conv x); out_div := read_map w o m (s_div x); out_heat := read_map w o m (b_ep4 b);
     out_lambda := read_map w o m (s_lambda x); out_phi := read_map w o m (s_phi x);
     out_lwa_baro := read_map w o m (b_lwa b); out_u_baro := read_map w o m (b_u b); out_nc_baro := read_map w o m (b_nc b); out_lwa := read_field w o m (b_lwa3 b);
     out_ua1 := read_field w o m (l_ua1 l); out_ua2 := read_field w o m (l_ua2 l); out_ep1 := read_field w o m (l_ep1 l);
     out_ep2 := read_field w o m (l_ep2 l); out_ep3 := read_field w o m (l_ep3 l);
     out_stretch := match s_stretch x with
                    | None => Raise ValueError
                    | Some d => read_field w o m (fun i j k => d i (n - m + j)%nat k)
                    end |}.
(** construct, interpolate_fields, compute_reference_states, compute_lwa_and_barotropic_fluxes(ncforce=nc), compute_layerwise_lwa_fluxes(ncforce=nc), read.
    The second and third begin by reading the property qgpv (600, 884), which may raise; the reference states are taken as converged. *)
Definition session (lib : library) (k : class) (w : qgargs) (nc : field3) : res outputs :=
  match create k w with
  | Raise e => Raise e
  | Done o => let x := read w o (analyse lib k w o nc) in match out_qgpv x with Raise e => Raise e | Done _ => Done x end
  end.

(** ** Other attributes and methods *)

(** ylat_ref_states, oopinterface.py:1178-1189: the size and the elements; x[-m:] starts at n - m *)
Definition ylat_ref_states (w : qgargs) (o : qgobj) : nat * (nat -> R) :=
  if w_nh w then
    if lg_need (g_lat (ob_grid o)) then ((w_nlat w / 2)%nat, fun j => w_ylat w (w_nlat w - w_nlat w / 2 + j)%nat)
    else ((w_nlat w / 2 + 1)%nat, fun j => w_ylat w (w_nlat w - (w_nlat w / 2 + 1) + j)%nat)
  else (w_nlat w, w_ylat w).
(** get_latitude_dim, oopinterface.py:1514-1518 *)
Definition get_latitude_dim (w : qgargs) : nat := w_nlat w.
(** the named tuple of compute_lwa_and_barotropic_fluxes, 943-961: the stored arrays, not interpolated back.  Rows of its arrays, its eight maps in
    order, and lwa *)
Definition tuple_rows (o : qgobj) : nat := rows (ob_conf o).
Definition tuple_maps (x : stores) : list (nat -> nat -> R) :=
  let py (y : arr2 R) := fun row i => y (i + 1)%nat (row + 1)%nat in let b := s_baro x in
  [py (b_ua1 b); py (b_ua2 b); py (b_ep1 b); py (s_conv x); py (s_div x); py (b_ep4 b); py (b_lwa b); py (b_u b)].
Definition tuple_lwa (x : stores) : field3 := fun k row i => b_lwa3 (s_baro x) (i + 1)%nat (row + 1)%nat (k + 1)%nat.

(** compute_ncforce_from_heating_rate, oopinterface.py:985-1019: the heating is (nlev, nlat, nlon) on the input latitudes, and so is the
    Coriolis factor, while equator_idx is that of the analysis grid; None: the shapes of z_derivative_of_prod do not fit *)
Definition ncforce_from_heating_rate (w : qgargs) (o : qgobj) (av : averages R) (heating : field3) : option field3 :=
  let c := ob_conf o in
  z_derivative_of_prod (stat_n av) (stat_s av) (p_kmax c) (w_nlat w) (p_eq c) (p_dz c) (fun k => exp (- p_height c k / p_h c))
    (vertical_interpolation w (ob_grid o) heating) (fun k j => 2 * p_om c * sin (deg2rad (w_ylat w j)) * exp (p_height c k / p_h c)).

(** the largest kmax suggested by the error message of _check_valid_plev, oopinterface.py:307-308: int(hmax // dz) + 1 *)
Definition suggested_kmax (w : qgargs) : Z := (Int_part (data_height w (w_nlev w - 1) / w_dz w) + 1)%Z.
