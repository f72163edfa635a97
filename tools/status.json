{
 "C16": {
  "note": "The full claim is false of the code: once read, lwa stays frozen when pv_field is replaced (_refuted). Proved: it follows the assignment if it was not read before, and exactly what it returns otherwise."
 },
 "C69": {
  "note": "False of the code for fields with non-zero global circulation (_refuted, constant field). Proved: exact FAWA formula with the global circulation as the defect."
 },
 "C19": {
  "note": "False of the code: rows with |clat| <= tol return the raw, undivided difference (_refuted for every tol). Proved: the exact value returned there."
 },
 "C20": {
  "note": "Interior rows proved. The edge clause is false: for every f with f*clat linear in latitude the first and last rows return half the derivative (_refuted, universally quantified)."
 },
 "C23": {
  "note": "False for every odd nlat >= 3 (_refuted): the middle row reads np.empty memory. Proved: the result is determined on covered rows (all rows for even nlat), with its exact value."
 },
 "C28": {
  "note": "False of the code: LayerwiseFluxTermsStorage declares ep4_nhem/ep4_shem without an ep4 array (_refuted). Proved for every other declared property."
 },
 "C31": {
  "note": "True in exact arithmetic (C30_acceptance_condition) and in binary64 when 180/nlat is dyadic (_partial); false in binary64 for nlat = 78 (_refuted: IndexError for every such grid)."
 },
 "C32": {
  "note": "False of the code: every off-centre grid with one zero is accepted (_refuted). Proved: symmetric ascending grids are always accepted and the equator is the middle row."
 },
 "C34": {
  "note": "False of the code for every constant (_refuted): the weights sum to more than 1 because the top level is missing from the prefactor. Proved: the exact factor, linearity, and bounds for columns vanishing at the top."
 },
 "C74": {
  "note": "Proved for u_field and v_field; false for t_field (_refuted): a (nlat, nlon) or (1, nlat, nlon) temperature is accepted."
 },
 "C75": {
  "note": "False of the code (_refuted): on every even grid in northern-only mode reading these raises ValueError. Results stored with hemispheric rows are returned (C76)."
 },
 "C38": {
  "note": "False of the code (_refuted): the non-convergence flag is never cleared. Proved in its strongest form: once a solve failed no later history makes the fluxes available."
 },
 "C39": {
  "note": "False of the code (_refuted): interpolate_fields does not reset the reference states. Proved: the exact pair of inputs used in general, and agreement when no interpolation came after the last solve."
 },
 "C41": {
  "note": "False of the code (_refuted): both methods run on the zero reference state. Proved: they need exactly interpolate_fields (and, for the layerwise method, an odd grid or an ncforce argument)."
 },
 "C44": {
  "note": "False at the last iteration for every maxit >= 2 (_refuted). Proved: the exact iteration count and that convergence strictly before maxit is what counts."
 },
 "C77": {
  "note": "False of the code on every even grid (_refuted: the default ncforce has the user's number of rows). Proved on odd grids."
 },
 "C78": {
  "note": "False of the code (_refuted, for every history)."
 },
 "C79": {
  "note": "False of the code (_refuted): the arrays exist from construction and are returned as zeros."
 },
 "C36": {
  "note": "False of the code (_refuted): the python average includes the top level, the kernel does not, and the kernel leaves the non-analysed rows zero. Proved: the exact difference, row by row."
 },
 "C47": {
  "note": "False of the code for every grid (_refuted): the first analysed row reads uref(0,k). Proved: a complete classification of every array reference of the northern kernel - the out-of-bounds ones are exactly the uref(0,k) reads and, for jb = 0, the writes to row 0 of ep2/ep3."
 },
 "C48": {
  "note": "North neighbour proved; the south neighbour is false in the first analysed row (_refuted for every grid): the kernel reads column index 0 of uref, i.e. the polar reference wind of the level below. Proved: exact values in every row."
 },
 "C81": {
  "note": "False of the code when evenly spaced pseudoheights do not start at 0 (_refuted). Proved: the two averages differ by exactly the factor exp(-h0/H), so agree when the first level is at height 0."
 },
 "C84": {
  "note": "False of the code for jb = 0 (_refuted): the equatorward momentum flux of level k is written out of bounds into the pole row of level k-1. Proved: every array is zero outside the analysed rows except ep2/ep3 in the one boundary row, whose content is given."
 },
 "C50": {
  "note": "False of the code whenever nlon <> 2 (nlat - 1) (_refuted, universally quantified): the zonal derivative is divided by the latitude spacing. Proved: the exact value, and correctness for nlon = 2 (nlat - 1)."
 },
 "C43": {
  "note": "The reference states are included, for NH18 with its own solver; for NHN22 see C110."
 },
 "C85": {
  "note": "For NH18 proved both for any solver whose equatorial wind is the same for both calls and, unconditionally, for the modelled solver."
 },
 "C90": {
  "note": "True on grids with the equator in the middle; false (_refuted) on an off-centre grid, which the constructor accepts."
 },
 "C92": {
  "note": "True north of the equator; false south of it (_refuted): the southern components are stored under undeclared attribute names and astar1/astar2 stay zero."
 },
 "C51": {
  "note": "False of the code (_refuted): the cumulative area drops the cells above the second contour and includes one interval too many; exact defect proved (_partial). Proved: bins stay in bounds, and the contour reported for a row encloses the cap area within two contour intervals. Levels of uniform PV (division by zero in the code) are excluded."
 },
 "C52": {
  "note": "Proved wherever the cap of the row is smaller than the area below the second contour; other rows get exactly 0, so the range claim is false there (_refuted)."
 },
 "C53": {
  "note": "The fixed-point equivalence is proved. Reported convergence only bounds the residual on the colour treated last (_partial); for rjac = 0.95 and any tol <= 1/2 a run reports convergence with a residual above 4/5 of the forcing (_refuted)."
 },
 "C96": {
  "note": "Edge values proved. The equatorial boundary condition of the inversion differs from the reported value (_refuted)."
 },
 "C99": {
  "note": "True when the area below the second contour exceeds a hemisphere at every interior level (_partial); otherwise cref(1,k) is read uninitialised and the wind depends on it (_refuted)."
 },
 "C95": {
  "note": "Proved for the solver and for the arrays an object reports. With both hemispheres the first row north of the equator is excluded for the object: the equator row there holds the southern solution."
 },
 "C55": {
  "note": "Proved for the solver and for the arrays an object reports (northern-only mode, and the southern hemisphere in global mode; in global mode the equator row of the northern solution is overwritten)."
 },
 "C54": {
  "note": "Boundary rows at least four rows from the pole (with three, the boundary value is overwritten and lost). LAPACK is assumed to return the exact inverse of a nonsingular matrix; such an inversion is constructed."
 },
 "C56": {
  "note": "False of the code (_refuted for the resting atmosphere): the boundary row of the reported wind is 0, or -omega*a on the top level, whatever the input. Proved: that value."
 },
 "C104": {
  "note": "False of the code whenever the boundary row is not the equator (_refuted for every such input): omega*a*cos is subtracted where omega*a*cos^2 belongs. Proved for boundary row 0."
 },
 "C105": {
  "note": "False of the code when rows are left out at the equator (_refuted): the gradient is taken jb rows nearer the equator. Proved for boundary row 0."
 },
 "C107": {
  "note": "Northern hemisphere proved. The southern reference state is given the northern mean (proved), so the claim fails when the means differ (_refuted)."
 },
 "C110": {
  "note": "The full statement is refuted (C110_nhn22_mirrored_refuted): the reference temperature of a mirrored state is not the mirrored one. C110_nhn22_mirrored_partial proves everything that does not depend on the reference wind and temperature, and the rest under the hypothesis that these two are mirrored."
 },
 "C57": {
  "note": "Violated for QGFieldNHN22 with both hemispheres: the field returns (southern, northern) and the dataset names them _n and _s in that order (C57_labels_refuted, C57_labels_exchanged says what is stored). A single profile is labelled correctly (C57_single_profile_partial)."
 },
 "C112": {
  "note": "True for nanosecond dates (C112_seconds_partial); the divisor 1e9 is fixed, so with dates counted in seconds an hour is reported as 3.6e-6 (C112_seconds_refuted; pandas/xarray versions with other resolutions)."
 },
 "C113": {
  "note": "True when u is a Dataset (C113_mixed_arguments_partial). With u a DataArray a Dataset given for v or t passes the type checks but cannot be renamed (C113_mixed_arguments_refuted)."
 },
 "C114": {
  "note": "The partial theorem gives the values whenever a result is returned; in the northern-only mode no result is returned because the field returns all rows while the variable is registered with the northern rows (C114_northern_only_refuted)."
 },
 "C62": {
  "note": "Composition and mirror symmetry of the reference are proved in full. Mirror symmetry of the wave activity is false of the code (_refuted): the row itself is always counted with the rows south of it; the exact difference is proved in C62_wave_activity_mirrors_partial."
 },
 "C63": {
  "note": "False of the code: eqvlat_bracket_hemispheric passes arguments its callee does not accept and always raises TypeError, and so does qgpv_eqlat_lwa_options with vgrad (_refuted). Proved: without vgrad the options function returns."
 },
 "C118": {
  "note": "True in the southern rows (proved). False in the northern rows (_refuted): the same one-sided test is used although temperature decreases northward there; C118_northern_reversed states exactly when the northern value is zero."
 },
 "C119": {
  "note": "The northern half has the opposite sign of the field (_refuted); southern range and exact relation to qgpv_eqlat_lwa proved."
 },
 "C120": {
  "note": "The function returns a pair (array, None), not the documented array; the first component is the wave activity."
 },
 "C65": {
  "note": "Complete levels come back unchanged and numbers are never altered, assuming the external fill keeps unmasked points (contract of gridfill.fill). The second half of the claim is false for infinities: on a level holding a NaN, infinite values are replaced as well (_refuted)."
 },
 "C123": {
  "note": "Proved for both boundary conditions and at least four levels, under the exactness contract of spsolve (scipy's solver is external). With three levels the adiabatic problem has more than one solution (_refuted): top and bottom conditions constrain the same difference."
 },
 "C125": {
  "note": "False of the code: Coriolis parameter and cosine are taken one row too far north (index j-1 of an array that starts one row higher), and the last even row is never computed and keeps zero (_refuted). Proved: the relation that does hold, and the value of the last row."
 },
 "C129": {
  "note": "NH18 in full; for NHN22 QGPV, winds, static stabilities, Qref, LWA, mean wind and forcing. Missing for NHN22: Uref, Ptref and the fluxes, for which the property is false (C110)."
 },
 "C130": {
  "note": "Proved on grids with the equator; on grids without it the northern-only session raises ValueError (refuted)."
 },
 "C132": {
  "note": "All numbers proved; that dphi is the spacing is proved for analysis grids from pole to pole and refuted for accepted odd grids that stop short of the poles (dphi is always 180 / (nlat - 1) degrees)."
 },
 "C134": {
  "note": "Proved on grids with the equator. On grids without it only winds linear in latitude are kept; in general refuted (interpolated there and back)."
 },
 "C135": {
  "note": "Proved on grids with the equator; without it the tuple has nlat + 1 rows (refuted)."
 },
 "C136": {
  "note": "Returns exactly on grids with the equator; refuted on the others."
 },
 "C138": {
  "note": "Only the first step of each axis is checked; refuted."
 },
 "C141": {
  "note": "Proved for every property on even grids, and on odd grids for qgpv, the interpolated fields, qref, the convergence, the divergence, the two flux vectors and (global mode) the stretch term. False of the code for the other properties on odd grids, each shown (_refuted), and for the named tuple of compute_lwa_and_barotropic_fluxes on every grid: those arrays are views of storage that the next computation writes in place."
 },
 "C142": {
  "note": "Proved on even grids for u_field, v_field, t_field (and t_field on odd grids, C143). False of the code for u_field and v_field on odd grids and for ylat on every grid: the object keeps references (_refuted)."
 },
 "C143": {
  "note": "Proved for copies: everything returned by properties, interpolate_fields (without the static stability) and compute_reference_states on even grids, qref on odd grids. False of the code for the other arrays (_refuted)."
 },
 "C144": {
  "note": "Proved with no meridional wind on the equator row. Refuted without that condition: hemisphere_to_globe keeps v on the equator, where antisymmetry would need 0, so the vorticity on the equator is seen with opposite signs by the two hemispheres; a 4 by 5 by 3 example gives lwa 0 at 45N and 2 at 45S."
 },
 "C145": {
  "note": "Exact characterisation: accepted if and only if a latitude of the hemisphere is exactly 0."
 },
 "C153": {
  "note": "The area statement holds where the cap is smaller than the area left by the first contour (and this is a hypothesis); elsewhere qref is 0 (proved), which refutes the plain expectation."
 },
 "C156": {
  "note": "The tolerance bounds the misfit over every second point (those treated in the last half sweep), as in the code's own test; the misfit of the other points is not bounded by it."
 },
 "C159": {
  "note": "Refuted part: u_baro of compute_lwa_only leaves out the top level and rows without wave activity; the formula it has is proved."
 },
 "C161": {
  "note": "Proved for double precision as implemented by IEEE 754 (Coq's SpecFloat). The expectation that the forcing term shows a missing vorticity is refuted by C161_forcing_shows_missing_vorticity_refuted."
 },
 "C162": {
  "note": "The expectation is false: refuted universally. Proved part: the mask has no influence at all."
 },
 "C163": {
  "note": "False in single precision, refuted for all usual grids and for the southern mode; proved for every monotone rounding when no computed latitude passes 90 degrees. Elementary functions are assumed correctly rounded and overflow is not modelled."
 },
 "C166": {
  "note": "Values proved. Two expectations are false and refuted: the topography is NaN also above the middle of the highest layer and between the middle of the lowest layer and the ground; and calling the function from another program raises NameError because it reads a global of the script."
 },
 "C167": {
  "note": "True for predigest_data.py. Refuted for the other three programs: sample_run_script.py turns the data even if the axes are not turned, the two programs of lubis_et_al_2025 turn axes but never data; the exact condition is proved."
 },
 "C168": {
  "note": "Contents and completion proved. Refuted: times after the month are ignored and shorter files make it fail; files from the ground on are refused."
 },
 "C169": {
  "note": "Refuted for the sample program (TypeError for every file: the routine it calls omits the required argument ncforce) and for grids without the equator; proved for grids with the equator."
 },
 "C170": {
  "note": "Refuted in two points: differences above diff_factor times the largest value are left blank, and None raises TypeError on maps although documented. matplotlib's contourf is modelled by its check of the levels."
 },
 "C173": {
  "note": "The expectation is false for PV and reference PV (refuted for every input, format and elementary-function library): a NaN fails both comparisons and is counted as undisplaced; a NaN reference PV gives exactly 0. Proved: NaN winds and temperatures show in ep1 and the barotropic wind, NaN forcing in the rows whose contour is displaced across it."
 },
 "C174": {
  "note": "False of the code (_refuted): on a level of uniform PV, and at every missing value, the bin is 1 + int(NaN), which is out of bounds on x86. Levels with distinct values: C51, C164."
 },
 "C183": {
  "note": "That every missing wind shows is refuted (C183_missing_wind_shows_refuted: the solver reads the wind on the equator only); the other parts are proved as stated."
 },
 "C184": {
  "note": "Over the real numbers; in floating point a tolerance below the rounding level of the residual need not be reached."
 },
 "C185": {
  "note": "Refuted as documented (C185_mean_of_stretching_term_is_the_heat_flux_refuted: heat that crosses the top of the column is included). True version proved: the average is the low-level heat flux less the flux through the top, when the static stability at the two lowest levels is that of the mean potential temperature by differences; without that assumption in terms of the static stability used."
 },
 "C192": {
  "note": "Holds under two conditions; a boundary next to the pole, which QGFieldNHN22 accepts, violates it (C192_boundary_next_to_the_pole_leaves_the_arrays), and so does a bin outside the arrays (C192_bins_outside_are_written)."
 },
 "C193": {
  "note": "Fails in binary64 for some spacings (C193_heights_are_the_levels_refuted); proved in exact arithmetic, and in binary64 whenever the product kmax*dz is exact, in particular for whole numbers of metres."
 },
 "C194": {
  "note": "Fails (C194_no_report_for_sound_data_refuted); proved which elements are taken from uninitialised memory and that no other element depends on it."
 },
 "C195": {
  "note": "The hypothesis unit_free holds for interpolating splines. The code leaves UnivariateSpline's smoothing at its default, a fixed bound on the squared residuals, which is not scale free: with scipy the unit of temperature can matter, and the theorem shows that this is the only place."
 },
 "C196": {
  "note": "Latitudes symmetric about the equator are needed: the code divides the northern mean by the southern weights (oopinterface.py:252-256), so on other grids (which the constructor accepts, C32) the northern mean does not follow the constant. The equatorial boundary must leave a row beside the pole. The reference temperature is treated for sessions without an equatorial boundary, as its rows there hold zeros; the stretch term, which subtracts those zeros, is left out."
 }
}