(** Model of the numerical part of QGField (/repo/src/falwa/oopinterface.py): how the results of the Fortran
    kernels for the two hemispheres are combined.  Arrays are functions of 1-based indices in Fortran
    order, as stored by data_storage.py; ylat, clat and height are 0-based.

    The reference state solver is a parameter (RefStates.v models the one of QGFieldNH18), the
    smoothing spline of scipy is a parameter.  Assumption: 1 <= jd, so that x[-jd:] is not x[0:]. *)
From Verif Require Export Flux Utilities Qgpv.

Section Pipeline.
  Context {A : Type} {N : Num A}.
  Local Open Scope num_scope.

  (** attributes set by __init__, oopinterface.py:93-187 and 1725-1736: sizes of the analysis grid, equator_idx,
      eq_boundary_index, jd, northern_hemisphere_results_only *)
  Record pconf := {
    p_nlon : nat; p_nlat : nat; p_kmax : nat; p_eq : nat; p_jb : nat; p_jd : nat; p_nh : bool;
    p_a : A; p_om : A; p_dz : A; p_h : A; p_rr : A; p_cp : A; p_prefac : A; p_dphi : A; p_dlambda : A; p_tol : A;
    p_height : nat -> A; p_ylat : nat -> A; p_clat : nat -> A }.
  Variable c : pconf.

  (** latitude rows of the storages, lat_dim, oopinterface.py:211 *)
  Definition rows : nat := if p_nh c then p_eq c else p_nlat c.

  (** only elements inside an array reach a kernel *)
  Definition clip3 (x : arr3 A) : arr3 A := fun i j k =>
    if Nat.leb 1 i && Nat.leb i (p_nlon c) && Nat.leb 1 j && Nat.leb j (p_nlat c) && Nat.leb 1 k && Nat.leb k (p_kmax c)
    then x i j k else nzero.
  Definition clip2 (m : nat) (x : arr2 A) : arr2 A := fun j k =>
    if Nat.leb 1 j && Nat.leb j m && Nat.leb 1 k && Nat.leb k (p_kmax c) then x j k else nzero.

  (** x[:, ::-1, :] and -x of a field with nlat rows *)
  Definition flip3 (x : arr3 A) : arr3 A := fun i j k => x i (p_nlat c + 1 - j)%nat k.
  Definition neg3 (x : arr3 A) : arr3 A := fun i j k => - x i j k.
  Definition neg2 (x : arr2 A) : arr2 A := fun j k => - x j k.
  (** x[-m:, :] and x[(m-1)::-1, :] of a stored (rows, kmax) array *)
  Definition last_rows (m : nat) (x : arr2 A) : arr2 A := fun r k => x (rows - m + r)%nat k.
  Definition first_rows_rev (m : nat) (x : arr2 A) : arr2 A := fun r k => x (m + 1 - r)%nat k.

  (** NHemProperty.__set__ and SHemProperty.__set__, data_storage.py:42-45 and 56-62, for a value with m rows;
      the other axes are fixed.  (Storage.v models the whole descriptor; PipelineProofs.v relates the two.) *)
  Definition set_nhem (m : nat) (old v : nat -> A) (j : nat) : A := if Nat.leb j (rows - m) then old j else v (j - (rows - m))%nat.
  Definition set_shem (m : nat) (old v : nat -> A) (j : nat) : A := if Nat.leb j m then v (m + 1 - j)%nat else old j.

  (** ** interpolate_fields, oopinterface.py:466-535 *)

  (** fields after the vertical interpolation *)
  Record fields := { u_ : arr3 A; v_ : arr3 A; theta_ : arr3 A }.

  (** hemispheric means of one level, oopinterface.py:249-256; theta is the (nlat, nlon) level, 0-based *)
  Definition csm : A := nsum (p_jd c) (p_clat c).
  Definition t0_south (theta : nat -> nat -> A) : A :=
    nsum (p_jd c) (fun j => nsum (p_nlon c) (fun i => theta j i * p_clat c j) / nofnat (p_nlon c)) / csm.
  Definition t0_north (theta : nat -> nat -> A) : A :=
    nsum (p_jd c) (fun r => let j := (p_nlat c - p_jd c + r)%nat in
      nsum (p_nlon c) (fun i => theta j i * p_clat c j) / nofnat (p_nlon c)) / csm.

  (** DomainAverageStorage; NH18: oopinterface.py:1567-1572, NHN22: 1743-1746 *)
  Record averages := { tn0 : nat -> A; ts0 : nat -> A; stat_n : nat -> A; stat_s : nat -> A }.
  Definition averages_nh18 (t0_s t0_n st_s st_n : nat -> A) : averages :=
    let t0 := fun k => nhalf * (t0_s k + t0_n k) in
    let st := fun k => nhalf * (st_s k + st_n k) in
    {| tn0 := t0; ts0 := t0; stat_n := st; stat_s := st |}.
  Definition averages_nhn22 (t0_s t0_n st_s st_n : nat -> A) : averages :=
    {| tn0 := t0_n; ts0 := t0_s; stat_n := st_n; stat_s := st_s |}.

  (** _compute_static_stability_func and its use, oopinterface.py:241-261 and 512-531: [spline] and [dspline] stand for
      scipy's UnivariateSpline on the data levels and its derivative, evaluated at the analysis levels;
      theta is the potential temperature on the data levels (level, row, longitude), 0-based.
      The interpolation of theta to the analysis levels is not modelled here.
      (The spline is a function of the data alone: the heights of the data levels are those of the object.) *)
  Definition domain_nhn22 (spline dspline : (nat -> A) -> nat -> A) (theta : nat -> nat -> nat -> A) : averages :=
    let s := fun l => t0_south (theta l) in let n := fun l => t0_north (theta l) in
    averages_nhn22 (spline s) (spline n) (dspline s) (dspline n).
  Definition domain_nh18 (spline dspline : (nat -> A) -> nat -> A) (theta : nat -> nat -> nat -> A) : averages :=
    let s := fun l => t0_south (theta l) in let n := fun l => t0_north (theta l) in
    averages_nh18 (spline s) (spline n) (dspline s) (dspline n).

  (** _compute_qgpv of the two classes, oopinterface.py:1573-1585 and 1747-1763, on the interpolated fields.
      [tn0] and the others are python arrays, read by the Fortran kernels from index 1 *)
  Definition one_based (x : nat -> A) (k : nat) : A := x (k - 1)%nat.
  Definition pv_nh18 (f : fields) (av : averages) : arr3 A :=
    qgpv_nh18 (p_nlon c) (p_nlat c) (p_kmax c) (p_a c) (p_om c) (p_h c) (one_based (p_height c))
      (clip3 (u_ f)) (clip3 (v_ f)) (clip3 (theta_ f)) (one_based (tn0 av)) (one_based (stat_n av)).
  Definition pv_nhn22 (f : fields) (av : averages) : arr3 A :=
    qgpv_nhn22 (p_nlon c) (p_nlat c) (p_kmax c) (p_a c) (p_om c) (p_h c) (one_based (p_height c)) (p_eq c)
      (clip3 (u_ f)) (clip3 (v_ f)) (clip3 (theta_ f)) (one_based (ts0 av)) (one_based (tn0 av)) (one_based (stat_s av)) (one_based (stat_n av)).

  (** ** compute_reference_states *)

  (** ReferenceStatesStorage: qref (divided by the Coriolis parameter), uref, ptref *)
  Record refstate := { qref_ : arr2 A; uref_ : arr2 A; ptref_ : arr2 A }.
  Definition zero_refs : refstate := {| qref_ := fun _ _ => nzero; uref_ := fun _ _ => nzero; ptref_ := fun _ _ => nzero |}.
  (** assignment of the three arrays of a hemisphere; the wind and temperature have [m] rows, Qref [mq] *)
  Definition store_north (mq m : nat) (old new : refstate) : refstate :=
    {| qref_ := fun j k => set_nhem mq (fun j => qref_ old j k) (fun j => qref_ new j k) j;
       uref_ := fun j k => set_nhem m (fun j => uref_ old j k) (fun j => uref_ new j k) j;
       ptref_ := fun j k => set_nhem m (fun j => ptref_ old j k) (fun j => ptref_ new j k) j |}.
  Definition store_south (mq m : nat) (old new : refstate) : refstate :=
    {| qref_ := fun j k => set_shem mq (fun j => qref_ old j k) (fun j => qref_ new j k) j;
       uref_ := fun j k => set_shem m (fun j => uref_ old j k) (fun j => uref_ new j k) j;
       ptref_ := fun j k => set_shem m (fun j => ptref_ old j k) (fun j => ptref_ new j k) j |}.

  (** QGFieldNH18._compute_reference_states, oopinterface.py:1604-1631; [solver] is the f2py routine
      with its scalar arguments, three arrays with equator_idx rows are returned *)
  Definition refs_nh18 (solver : arr3 A -> arr3 A -> arr3 A -> refstate) (qgpv : arr3 A) (f : fields) (old : refstate) : refstate :=
    let north := store_north (p_eq c) (p_eq c) old (solver (clip3 qgpv) (clip3 (u_ f)) (clip3 (theta_ f))) in
    if p_nh c then north
    else store_south (p_eq c) (p_eq c) north
           (solver (clip3 (neg3 (flip3 qgpv))) (clip3 (flip3 (u_ f))) (clip3 (flip3 (theta_ f)))).

  (** QGFieldNHN22._compute_reference_states, oopinterface.py:1774-1806; [inversion] stands for
      _compute_reference_states_nhn22_hemispheric_wrapper: Qref has equator_idx rows, the others jd *)
  Definition refs_nhn22 (inversion : arr3 A -> arr3 A -> arr3 A -> arr3 A -> (nat -> A) -> (nat -> A) -> refstate)
    (qgpv avort : arr3 A) (f : fields) (av : averages) (old : refstate) : refstate :=
    let north := store_north (p_eq c) (p_jd c) old
      (inversion (clip3 qgpv) (clip3 (u_ f)) (clip3 avort) (clip3 (theta_ f)) (tn0 av) (stat_n av)) in
    if p_nh c then north
    else store_south (p_eq c) (p_jd c) north
      (inversion (clip3 (neg3 (flip3 qgpv))) (clip3 (flip3 (u_ f))) (clip3 (flip3 avort)) (clip3 (flip3 (theta_ f))) (ts0 av) (stat_s av)).

  (** ** LWA and fluxes *)

  (** qref_correct_unit, data_storage.py:172-181, with ylat_input of oopinterface.py:711 *)
  Definition qref_correct_unit (r : refstate) : arr2 A := fun j k =>
    let y := if p_nh c then p_ylat c (p_nlat c - p_eq c + (j - 1))%nat else p_ylat c (j - 1)%nat in
    qref_ r j k * nofZ 2 * p_om c * nsin (deg2rad y).

  (** the scalar arguments of the f2py call, oopinterface.py:430-448; nd and jd are the numbers of rows
      of qref and uref *)
  Definition dims : fluxdims A :=
    {| imax := p_nlon c; jmax := p_nlat c; kmax := p_kmax c; nd := p_eq c; jb := p_jb c; jd := p_jd c; is_nhem := true;
       f_a := p_a c; f_om := p_om c; f_dz := p_dz c; f_h := p_h c; f_rr := p_rr c; f_cp := p_cp c; f_prefac := p_prefac c |}.

  (** arguments of one hemispheric call *)
  Record kin := { i_pv : arr3 A; i_uu : arr3 A; i_vv : arr3 A; i_pt : arr3 A; i_nc : arr3 A; i_t0 : nat -> A;
                  i_qref : arr2 A; i_uref : arr2 A; i_tref : arr2 A }.
  (** oopinterface.py:754-764 and 1107-1115 *)
  Definition north_args (qgpv : arr3 A) (f : fields) (nc : arr3 A) (av : averages) (r : refstate) : kin :=
    {| i_pv := clip3 qgpv; i_uu := clip3 (u_ f); i_vv := clip3 (v_ f); i_pt := clip3 (theta_ f); i_nc := clip3 nc;
       i_t0 := one_based (tn0 av); i_qref := clip2 (p_eq c) (last_rows (p_eq c) (qref_correct_unit r));
       i_uref := clip2 (p_jd c) (last_rows (p_jd c) (uref_ r)); i_tref := clip2 (p_jd c) (last_rows (p_jd c) (ptref_ r)) |}.
  (** oopinterface.py:783-793 and 1135-1143 *)
  Definition south_args (qgpv : arr3 A) (f : fields) (nc : arr3 A) (av : averages) (r : refstate) : kin :=
    {| i_pv := clip3 (neg3 (flip3 qgpv)); i_uu := clip3 (flip3 (u_ f)); i_vv := clip3 (neg3 (flip3 (v_ f)));
       i_pt := clip3 (flip3 (theta_ f)); i_nc := clip3 (flip3 nc);
       i_t0 := one_based (ts0 av); i_qref := clip2 (p_eq c) (neg2 (first_rows_rev (p_eq c) (qref_correct_unit r)));
       i_uref := clip2 (p_jd c) (first_rows_rev (p_jd c) (uref_ r)); i_tref := clip2 (p_jd c) (first_rows_rev (p_jd c) (ptref_ r)) |}.

  (** results of compute_flux_dirinv_nshem *)
  Definition k_astar1 (x : kin) : arr3 A := astar1 dims (i_pv x) (i_qref x).
  Definition k_astar2 (x : kin) : arr3 A := astar2 dims (i_pv x) (i_qref x).
  Definition k_ncforce (x : kin) : arr3 A := ncforce3d dims (i_pv x) (i_nc x) (i_qref x).
  Definition k_ua1 (x : kin) : arr3 A := ua1 dims (i_pv x) (i_qref x) (i_uref x).
  Definition k_ua2 (x : kin) : arr3 A := ua2 dims (i_pv x) (i_uu x) (i_qref x) (i_uref x).
  Definition k_ep1 (x : kin) : arr3 A := ep1 dims (i_uu x) (i_vv x) (i_pt x) (i_t0 x) (i_uref x) (i_tref x).
  Definition k_ep2 (x : kin) : arr3 A := ep2 dims (i_uu x) (i_vv x) (i_uref x).
  Definition k_ep3 (x : kin) : arr3 A := ep3 dims (i_uu x) (i_vv x) (i_uref x).
  Definition k_ep4 (x : kin) : arr2 A := ep4 dims (i_vv x) (i_pt x) (i_t0 x) (i_tref x).
  (** vertical averages, oopinterface.py:450-459 *)
  Definition avg (x : arr3 A) : arr2 A := column_average dims (p_height c) x.
  Definition k_lwa_baro (x : kin) : arr2 A := fun i j => avg (k_astar1 x) i j + avg (k_astar2 x) i j.
  Definition k_u_baro (x : kin) : arr2 A := py_u_baro dims (p_height c) (i_uu x).

  (** a stored field assembled from the two hemispheric results, starting from the zeros of np.zeros:
      the northern result is stored first, then (unless in northern-only mode) the southern one *)
  Definition global2 (north south : arr2 A) : arr2 A := fun i j =>
    let o := set_nhem (p_eq c) (fun _ => nzero) (fun r => north i r) in
    if p_nh c then o j else set_shem (p_eq c) o (fun r => south i r) j.
  Definition global3 (north south : arr3 A) : arr3 A := fun i j k =>
    let o := set_nhem (p_eq c) (fun _ => nzero) (fun r => north i r k) in
    if p_nh c then o j else set_shem (p_eq c) o (fun r => south i r k) j.

  (** BarotropicFluxTermsStorage and the lwa of LayerwiseFluxTermsStorage after
      _compute_intermediate_barotropic_flux_terms, oopinterface.py:716-793.
      The southern ep2/ep3 results are exchanged and negated. *)
  Record baro := { b_lwa : arr2 A; b_u : arr2 A; b_ua1 : arr2 A; b_ua2 : arr2 A; b_ep1 : arr2 A; b_ep2 : arr2 A; b_ep3 : arr2 A;
                   b_ep4 : arr2 A; b_astar1 : arr2 A; b_astar2 : arr2 A; b_nc : arr2 A; b_lwa3 : arr3 A }.
  Definition barotropic_terms (n s : kin) : baro :=
    let neg x := fun i j => - (x i j) in
    {| b_lwa := global2 (k_lwa_baro n) (k_lwa_baro s);
       b_u := global2 (k_u_baro n) (k_u_baro s);
       b_ua1 := global2 (avg (k_ua1 n)) (avg (k_ua1 s));
       b_ua2 := global2 (avg (k_ua2 n)) (avg (k_ua2 s));
       b_ep1 := global2 (avg (k_ep1 n)) (avg (k_ep1 s));
       b_ep2 := global2 (avg (k_ep2 n)) (neg (avg (k_ep3 s)));
       b_ep3 := global2 (avg (k_ep3 n)) (neg (avg (k_ep2 s)));
       b_ep4 := global2 (k_ep4 n) (k_ep4 s);
       b_astar1 := global2 (avg (k_astar1 n)) (avg (k_astar1 s));
       b_astar2 := global2 (avg (k_astar2 n)) (avg (k_astar2 s));
       b_nc := global2 (avg (k_ncforce n)) (neg (avg (k_ncforce s)));
       b_lwa3 := global3 (fun i j k => nabs (k_astar1 n i j k + k_astar2 n i j k)) (fun i j k => nabs (k_astar1 s i j k + k_astar2 s i j k)) |}.

  (** clat for the stored rows, oopinterface.py:909, 0-based *)
  Definition out_clat (j : nat) : A := if p_nh c then p_clat c (p_nlat c - p_eq c + j)%nat else p_clat c j.

  (** compute_lwa_and_barotropic_fluxes, oopinterface.py:908-942 (results by (longitude, row), 1-based) *)
  Definition div_momentum_flux (b : baro) : arr2 A := fun i j =>
    (b_ep2 b i j - b_ep3 b i j) / (nofZ 2 * p_a c * p_dphi c * out_clat (j - 1)).
  Definition zonal_flux (b : baro) : arr2 A := fun i j => b_ua1 b i j + b_ua2 b i j + b_ep1 b i j.
  Definition conv_zonal_flux (b : baro) : arr2 A := fun i j =>
    zonal_convergence (p_nlon c) (fun j' i' => zonal_flux b (i' + 1)%nat (j' + 1)%nat) out_clat (p_dlambda c) (p_a c) (p_tol c) (j - 1) (i - 1).
  (** _compute_flux_vector_phi_baro, oopinterface.py:964-982 *)
  Definition flux_vector_phi (f : fields) (r : refstate) : arr2 A := fun i j =>
    let off := if p_nh c then (p_eq c - 1)%nat else O in
    avg (fun i' j' k' => - ((u_ f i' (off + j')%nat k' - uref_ r j' k') * v_ f i' (off + j')%nat k' * p_clat c (off + j' - 1)%nat)) i j.

  (** LayerwiseFluxTermsStorage after _compute_layerwise_lwa_fluxes_wrapper, oopinterface.py:1063-1155 *)
  Record layerwise := { l_lwa : arr3 A; l_astar1 : arr3 A; l_astar2 : arr3 A; l_nc : arr3 A; l_ua1 : arr3 A; l_ua2 : arr3 A;
                        l_ep1 : arr3 A; l_ep2 : arr3 A; l_ep3 : arr3 A; l_ep4 : arr2 A }.
  Definition layerwise_terms (n s : kin) : layerwise :=
    let neg x := fun i j k => - (x i j k) in
    let a1 := global3 (k_astar1 n) (k_astar1 s) in
    let a2 := global3 (k_astar2 n) (k_astar2 s) in
    {| l_lwa := fun i j k => a1 i j k + a2 i j k; l_astar1 := a1; l_astar2 := a2;
       l_nc := global3 (k_ncforce n) (neg (k_ncforce s));
       l_ua1 := global3 (k_ua1 n) (k_ua1 s); l_ua2 := global3 (k_ua2 n) (k_ua2 s); l_ep1 := global3 (k_ep1 n) (k_ep1 s);
       l_ep2 := global3 (k_ep2 n) (neg (k_ep3 s)); l_ep3 := global3 (k_ep3 n) (neg (k_ep2 s));
       l_ep4 := global2 (k_ep4 n) (k_ep4 s) |}.

  (** _compute_stretch_term, oopinterface.py:1021-1061, at (longitude, global row, level), 1-based; None: the
      shapes do not fit.  In northern-only mode ptref is padded with zeros to the whole globe. *)
  Definition stretch_term (f : fields) (av : averages) (r : refstate) : option (arr3 A) :=
    let pt j k := if p_nh c then (if Nat.leb j (p_nlat c - p_eq c) then nzero else ptref_ r (j - (p_nlat c - p_eq c))%nat k)
                  else ptref_ r j k in
    let g k j i := v_ f (i + 1)%nat (j + 1)%nat (k + 1)%nat
                   * (theta_ f (i + 1)%nat (j + 1)%nat (k + 1)%nat - pt (j + 1)%nat (k + 1)%nat) * p_clat c j in
    option_map (fun d => fun i j k => - (d (k - 1)%nat (j - 1)%nat (i - 1)%nat))
      (z_derivative_of_prod (stat_n av) (stat_s av) (p_kmax c) (p_nlat c) (p_eq c) (p_dz c)
         (fun k => nexp (- p_height c k / p_h c)) g
         (fun k j => nofZ 2 * p_om c * nsin (deg2rad (p_ylat c j)) * nexp (p_height c k / p_h c))).

  (** compute_ncforce_from_heating_rate, oopinterface.py:985-1019, after the vertical interpolation, on a grid
      that needs no latitude interpolation; python index order (level, row, longitude), 0-based *)
  Definition ncforce_from_heating (av : averages) (heating : nat -> nat -> nat -> A) : option (nat -> nat -> nat -> A) :=
    z_derivative_of_prod (stat_n av) (stat_s av) (p_kmax c) (p_nlat c) (p_eq c) (p_dz c)
         (fun k => nexp (- p_height c k / p_h c)) heating
         (fun k j => nofZ 2 * p_om c * nsin (deg2rad (p_ylat c j)) * nexp (p_height c k / p_h c)).

  (** compute_lwa_only, oopinterface.py:646-691.  The southern 3-d arrays astar1 and astar2 go to attributes
      (astar1_baro_shem, astar2_baro_shem) that LayerwiseFluxTermsStorage does not declare *)
  Record lwaonly := { o_lwa_baro : arr2 A; o_u_baro : arr2 A; o_lwa : arr3 A; o_astar1 : arr3 A; o_astar2 : arr3 A }.
  Definition lwa_only (qgpv : arr3 A) (f : fields) (r : refstate) : lwaonly :=
    let qn := clip2 (p_eq c) (last_rows (p_eq c) (qref_correct_unit r)) in
    let qs := clip2 (p_eq c) (neg2 (first_rows_rev (p_eq c) (qref_correct_unit r))) in
    let pn := clip3 qgpv in let ps := clip3 (neg3 (flip3 qgpv)) in
    {| o_lwa_baro := global2 (lo_astarbaro dims pn qn) (lo_astarbaro dims ps qs);
       o_u_baro := global2 (lo_ubaro dims (clip3 (u_ f))) (lo_ubaro dims (clip3 (flip3 (u_ f))));
       o_lwa := global3 (fun i j k => nabs (lo_astar1 dims pn qn i j k + lo_astar2 dims pn qn i j k))
                        (fun i j k => nabs (lo_astar1 dims ps qs i j k + lo_astar2 dims ps qs i j k));
       o_astar1 := fun i j k => set_nhem (p_eq c) (fun _ => nzero) (fun r => nabs (lo_astar1 dims pn qn i r k)) j;
       o_astar2 := fun i j k => set_nhem (p_eq c) (fun _ => nzero) (fun r => nabs (lo_astar2 dims pn qn i r k)) j |}.
End Pipeline.
Arguments pconf : clear implicits.
Arguments fields : clear implicits.
Arguments refstate : clear implicits.
Arguments averages : clear implicits.
Arguments kin : clear implicits.
Arguments baro : clear implicits.
Arguments layerwise : clear implicits.
Arguments lwaonly : clear implicits.
