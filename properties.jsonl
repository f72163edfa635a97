{"id": "C01", "title": "LWA is the displaced-contour line integral", "statement": "For every vorticity field, reference profile and weight vector, the value basis.lwa returns at (row j, longitude i), j below the last row, equals the sum over rows r>j holding vorticity below Q_j of (Q_j - q) dmu_r plus the sum over rows r<=j holding vorticity above Q_j of (q - Q_j) dmu_r, and is 0 on the last row; with return_partitioned_lwa=True, slot 0 is the first sum and slot 1 the second.", "quantifier": "all nlat, nlon, all real fields vort, profiles q_part and weights dmu, all (j,i) in range", "why_tests_cant": "a test compares a few hand-made fields; the mask arithmetic has to be right for every sign pattern of q-Q in every row and for every boundary row", "anchors": ["src/falwa/basis.py:lwa"]}
{"id": "C02", "title": "LWA is non-negative, component by component", "statement": "With non-negative latitude weights, both the cyclonic and anticyclonic components and their sum returned by basis.lwa are >= 0 everywhere, and this stays true when every arithmetic operation is rounded by any monotone rounding that keeps 0 (so also in floating point).", "quantifier": "all sizes, fields, reference profiles (even non-monotone), all non-negative dmu, all monotone roundings fixing 0", "why_tests_cant": "one negative value for one sign pattern is enough to break blocking-detection thresholds; a finite sample cannot exclude it", "anchors": ["src/falwa/basis.py:lwa"]}
{"id": "C03", "title": "LWA vanishes exactly when no contour is displaced", "statement": "With positive weights, LWA is 0 at (j,i) if and only if along longitude i every row north of j has vorticity >= Q_j and every row at or south of j has vorticity <= Q_j. In particular a zonally symmetric, northward non-decreasing field with Q equal to it has zero LWA everywhere.", "quantifier": "all sizes, fields, reference profiles and strictly positive weights", "why_tests_cant": "the existing test checks one 5x5 field; the equivalence has to hold for all fields including ties q=Q_j", "anchors": ["src/falwa/basis.py:lwa", "tests/test_basis.py:test_lwa"]}
{"id": "C04", "title": "Partitioned and total LWA agree", "statement": "The field returned with return_partitioned_lwa=False is the sum of the two components returned with True, for the same input, and bigsigma does not depend on that flag.", "quantifier": "all inputs of basis.lwa", "why_tests_cant": "relational property over two calls for every input", "anchors": ["src/falwa/basis.py:lwa", "src/falwa/barotropic_field.py:BarotropicField.lwa"]}
{"id": "C05", "title": "LWA is column-local and commutes with any relabelling of longitudes", "statement": "The LWA at longitude i depends only on the vorticity along longitude i, so applying any permutation (in particular a rotation) of longitudes to the input permutes the output the same way.", "quantifier": "all fields, all index maps on longitudes, all sizes", "why_tests_cant": "a hyper-property over pairs of inputs and all permutations", "anchors": ["src/falwa/basis.py:lwa"]}
{"id": "C06", "title": "LWA scales with the field and ignores offsets", "statement": "Replacing q by a*q+b and Q by a*Q+b with a>0 multiplies both LWA components by a; with a<0 it does not simply swap the components because the row j itself is only searched on the cyclonic side.", "quantifier": "all fields, all a>0 and all b", "why_tests_cant": "relational property over all affine rescalings", "anchors": ["src/falwa/basis.py:lwa"]}
{"id": "C07", "title": "Non-conservative forcing term is linear and uses the same displaced region", "statement": "bigsigma from basis.lwa is the sum over exactly the rows counted in LWA of +ncforce*dmu on the cyclonic side and -ncforce*dmu on the anticyclonic side; it is linear in ncforce, None when ncforce is None, and 0 on the last row.", "quantifier": "all fields and forcings", "why_tests_cant": "linearity is a statement over all pairs of forcings", "anchors": ["src/falwa/basis.py:lwa"]}
{"id": "C08", "title": "Cumulative area in the equivalent-latitude map is the area below each contour", "statement": "For every field and area array, the k-th cumulative area used by eqvlat_fawa equals the total area of cells whose vorticity is strictly below the k-th of n_points equally spaced contour values between min and max; it starts at 0, never decreases for non-negative areas and never exceeds the total area.", "quantifier": "all fields, all area arrays, all n_points >= 2", "why_tests_cant": "np.digitize boundary conventions matter on ties and at the extreme contours, on a measure-zero set a random test does not hit", "anchors": ["src/falwa/basis.py:eqvlat_fawa"]}
{"id": "C09", "title": "Reference vorticity profile is non-decreasing in latitude and stays within the data range", "statement": "For every field with non-negative areas summing to at most the sphere's area, the qref returned by eqvlat_fawa (and BarotropicField.equivalent_latitudes) is non-decreasing in latitude for non-decreasing ylat and each value lies between the field's minimum and maximum.", "quantifier": "all fields, all areas with total in [0, 4 pi a^2], all latitude arrays, all n_points >= 2", "why_tests_cant": "existing tests check two smooth fields; empty bins create duplicate interpolation nodes whose handling has to be right for every field", "anchors": ["src/falwa/basis.py:eqvlat_fawa", "src/falwa/barotropic_field.py:BarotropicField.equivalent_latitudes"]}
{"id": "C10", "title": "Default cell areas never exceed the sphere, so the arcsine never leaves its domain", "statement": "With the area BarotropicField builds by default on an evenly spaced pole-to-pole latitude grid, the total area is at most 4 pi a^2, so every equivalent latitude is a number and not NaN.", "quantifier": "all nlat >= 2, nlon >= 1 and planet radii", "why_tests_cant": "needs a closed form for the sum of cosines for every grid size", "anchors": ["src/falwa/barotropic_field.py:BarotropicField.__init__", "src/falwa/basis.py:eqvlat_fawa"]}
{"id": "C11", "title": "The reference profile only sees the area-value distribution", "statement": "Rearranging the grid cells in any way that carries the areas along with the vorticity values leaves the output of eqvlat_fawa unchanged (conservative rearrangement invariance).", "quantifier": "all permutations of cells, all fields", "why_tests_cant": "quantifies over all permutations of all fields", "anchors": ["src/falwa/basis.py:eqvlat_fawa"]}
{"id": "C12", "title": "The reference profile commutes with affine rescaling", "statement": "Replacing vort by a*vort+b with a>0 replaces qref by a*qref+b.", "quantifier": "all fields, a>0, b", "why_tests_cant": "relational property", "anchors": ["src/falwa/basis.py:eqvlat_fawa"]}
{"id": "C13", "title": "eqvlat_vgrad and eqvlat_fawa give the same reference profile", "statement": "For every field and area array the q_part returned by eqvlat_vgrad equals the qref returned by eqvlat_fawa, with or without vgrad.", "quantifier": "all fields, area arrays, ylat, n_points", "why_tests_cant": "two separately written binning loops must agree on every input including ties and empty bins", "anchors": ["src/falwa/basis.py:eqvlat_fawa", "src/falwa/basis.py:eqvlat_vgrad"]}
{"id": "C14", "title": "Bracket average stays in the data range", "statement": "The per-bin average dp computed for vgrad lies between the smallest and largest vgrad value for a non-empty bin of positive area and the returned brac lies in the hull of these values and 0.", "quantifier": "all fields, positive areas, vgrad arrays", "why_tests_cant": "bounds for every field", "anchors": ["src/falwa/basis.py:eqvlat_vgrad"]}
{"id": "C15", "title": "BarotropicField results do not depend on the order or number of reads", "statement": "As long as the object's fields are not reassigned, any interleaving of reads of equivalent_latitudes and lwa returns the same two arrays. Reassigning pv_field is reflected by equivalent_latitudes at once.", "quantifier": "all finite histories of reads and assignments", "why_tests_cant": "history property over all sequences", "anchors": ["src/falwa/barotropic_field.py:BarotropicField.equivalent_latitudes", "src/falwa/barotropic_field.py:BarotropicField.lwa"]}
{"id": "C16", "title": "BarotropicField outputs stay consistent after the field is replaced", "statement": "After assigning a new pv_field, lwa and equivalent_latitudes both describe the new field.", "quantifier": "all histories with assignments", "why_tests_cant": "needs a specific read-assign-read history", "anchors": ["src/falwa/barotropic_field.py:BarotropicField._compute_lwa", "src/falwa/barotropic_field.py:BarotropicField._compute_eqvlat"]}
{"id": "C17", "title": "Zonal convergence conserves: its zonal sum is zero", "statement": "For every field, cosine array, spacing and radius, the sum over longitudes of the output of zonal_convergence is 0 in every row; the operator is linear, kills zonally uniform fields and commutes with rotations in longitude.", "quantifier": "all nlon >= 2, all nlat, all fields", "why_tests_cant": "a global identity for every grid size including the two wrap-around columns", "anchors": ["src/falwa/utilities.py:zonal_convergence"]}
{"id": "C18", "title": "Zonal convergence is the centred periodic difference away from the poles", "statement": "In every row with |cos| > tol the output equals -(f(i+1)-f(i-1))/(2 a cos(lat) dlambda) with longitude indices taken modulo nlon.", "quantifier": "all fields, nlon >= 2, all rows with |clat|>tol", "why_tests_cant": "the wrap-around cases are separate statements in the code", "anchors": ["src/falwa/utilities.py:zonal_convergence"]}
{"id": "C19", "title": "Rows at the poles are returned as zero", "statement": "In every row with |cos| <= tol, zonal_convergence and meridional_divergence return 0, as documented.", "quantifier": "all fields and rows with |clat| <= tol", "why_tests_cant": "only visible on rows with tiny cosine, which the existing test discards", "anchors": ["src/falwa/utilities.py:zonal_convergence", "src/falwa/utilities.py:meridional_divergence"]}
{"id": "C20", "title": "Meridional divergence is the centred difference of f cos(lat) in the interior and consistent at the edges", "statement": "Interior rows of meridional_divergence equal (f cos at j+1 minus f cos at j-1)/(2 a cos dphi), and the first and last rows approximate the same derivative to first order (are exact when f cos is linear in latitude).", "quantifier": "all fields, nlat >= 3", "why_tests_cant": "must hold for all linear fields; existing tests skip edge rows", "anchors": ["src/falwa/utilities.py:meridional_divergence"]}
{"id": "C21", "title": "curl_2d obeys a discrete Stokes theorem and vanishes at the poles", "statement": "First and last rows are 0; each interior row's cos-weighted zonal sum depends only on u at the two neighbouring rows, and the cos-weighted sum over all interior rows telescopes to the circulation at the bounding rows; curl is linear in (u,v).", "quantifier": "all fields, nlat >= 3, nlon >= 2, clat non-zero on interior rows", "why_tests_cant": "telescoping identity for every grid size", "anchors": ["src/falwa/utilities.py:curl_2d"]}
{"id": "C22", "title": "Domain-averaged potential temperature is a genuine weighted average and static stability is exact on linear profiles", "statement": "static_stability returns hemispheric means between the minimum and maximum of theta in that hemisphere, and returns exactly the slope at every level (including both ends) when theta is linear in height, for every strictly increasing height grid.", "quantifier": "all kmax >= 2, height grids, positive areas, hemispheric index choices in range", "why_tests_cant": "all grids and weights", "anchors": ["src/falwa/utilities.py:static_stability"]}
{"id": "C23", "title": "compute_qgpv_givenvort is a function of its inputs", "statement": "Every element of the returned QGPV is determined by the inputs (no uninitialised memory reaches the result), for every nlat.", "quantifier": "all grid sizes and inputs and all contents of uninitialised memory", "why_tests_cant": "np.empty usually returns zeros in a fresh process; the dependence shows only for odd nlat and dirty memory", "anchors": ["src/falwa/utilities.py:compute_qgpv_givenvort"]}
{"id": "C24", "title": "Vertical derivative helper is linear and exact", "statement": "z_derivative_of_prod is linear in gfunc, uses the southern stability south of the equator, the northern one north of it and their mean on the equator, and is exact at every level when density*g/stability is linear in height.", "quantifier": "all kmax >= 2, equator index, gfunc, multiplier", "why_tests_cant": "all shapes and inputs", "anchors": ["src/falwa/utilities.py:z_derivative_of_prod"]}
{"id": "C25", "title": "Hemispheric views write and read the right rows", "statement": "Writing a northern array of jdim rows changes exactly the last jdim latitude rows and keeps order; writing a southern array of jdim rows changes exactly the first jdim rows and stores them flipped; all other rows are unchanged; reading back the southern block in reverse row order returns the written array.", "quantifier": "all nlat, jdim <= nlat, arrays and previous contents", "why_tests_cant": "slice arithmetic with negative bounds for every size", "anchors": ["src/falwa/data_storage.py:NHemProperty", "src/falwa/data_storage.py:SHemProperty"]}
{"id": "C26", "title": "After writing both hemispheres every row is determined, and the equator row is the southern one", "statement": "For odd nlat, writing (nlat//2+1)-row northern then southern arrays leaves row r equal to the flipped southern array for r <= nlat//2 and the northern array above it, whatever was stored before.", "quantifier": "all odd nlat, all arrays and initial contents", "why_tests_cant": "the overlap at the equator is a single row", "anchors": ["src/falwa/data_storage.py:NHemProperty", "src/falwa/data_storage.py:SHemProperty"]}
{"id": "C27", "title": "In northern-only mode southern variables can never be read or written", "statement": "With northern_hemisphere_results_only=True every southern get or set raises InvalidCallOfSHemVariables and no history of gets and sets changes storage through the southern names.", "quantifier": "all histories of get/set operations", "why_tests_cant": "history property", "anchors": ["src/falwa/data_storage.py:SHemProperty"]}
{"id": "C28", "title": "Every declared storage view refers to an existing array", "statement": "For each storage class, each declared hemispheric property can be read after construction.", "quantifier": "all declared properties of all storage classes", "why_tests_cant": "no test touches all of them", "anchors": ["src/falwa/data_storage.py:LayerwiseFluxTermsStorage", "src/falwa/data_storage.py:BarotropicFluxTermsStorage", "src/falwa/data_storage.py:ReferenceStatesStorage"]}
{"id": "C29", "title": "Python and Fortran index orders are mutually inverse", "statement": "fortran_to_python and python_to_fortran undo each other for every stored array shape.", "quantifier": "all shapes and arrays", "why_tests_cant": "all shapes", "anchors": ["src/falwa/data_storage.py:DerivedQuantityStorage"]}
{"id": "C30", "title": "Accepted latitude grids have exactly one equator point and it is where the code thinks it is", "statement": "If construction succeeds then the analysis grid contains latitude 0 at position equator_idx (1-based) and nowhere else; grids whose first step is descending are rejected.", "quantifier": "all input latitude arrays", "why_tests_cant": "all arrays including unsorted and off-centre ones", "anchors": ["src/falwa/oopinterface.py:QGFieldBase._check_and_flip_ylat"]}
{"id": "C31", "title": "Every even-sized latitude grid without an equator point is accepted", "statement": "For every even nlat >= 2, constructing a QGField on a grid without latitude 0 succeeds by interpolating to nlat+1 points including the equator.", "quantifier": "all even nlat, in IEEE double arithmetic", "why_tests_cant": "fails only for particular sizes through rounding; tests use 120 and 192", "anchors": ["src/falwa/oopinterface.py:QGFieldBase._check_and_flip_ylat"]}
{"id": "C32", "title": "Accepted grids are symmetric about the equator", "statement": "If construction succeeds then the equator is the middle row of the analysis grid, so that the hemispheric arrays fit the storage.", "quantifier": "all accepted latitude arrays", "why_tests_cant": "needs odd-sized grids with off-centre zero or even grids containing zero", "anchors": ["src/falwa/oopinterface.py:QGFieldBase._check_and_flip_ylat", "src/falwa/oopinterface.py:QGFieldBase._initialize_storage"]}
{"id": "C33", "title": "Accepted vertical grids never extrapolate above the data", "statement": "If construction succeeds on pressure levels in descending order then every analysis height lies at or below the highest data level, and values interpolated at heights at or above the lowest data level lie between the data values of the two bracketing levels.", "quantifier": "all plev, kmax, dz, fields", "why_tests_cant": "all grids", "anchors": ["src/falwa/oopinterface.py:QGFieldBase._check_valid_plev", "src/falwa/oopinterface.py:QGFieldBase._vertical_interpolation"]}
{"id": "C34", "title": "Vertical averaging preserves constants", "statement": "The density-weighted vertical average used for barotropic outputs maps a height-independent field to itself.", "quantifier": "all kmax >= 3, dz > 0, H > 0 and constants", "why_tests_cant": "the relative error is e^{-(kmax-1)dz/H}-small and hidden by test tolerances", "anchors": ["src/falwa/oopinterface.py:QGFieldBase._vertical_average", "src/falwa/oopinterface.py:QGFieldBase._compute_prefactor"]}
{"id": "C35", "title": "Barotropic LWA from the two code paths agree", "statement": "lwa_baro computed by compute_lwa_only equals the lwa_baro computed by compute_lwa_and_barotropic_fluxes for the same fields and reference state, in the northern hemisphere.", "quantifier": "all fields and reference states", "why_tests_cant": "two different kernels and two different vertical averages must agree for all inputs", "anchors": ["src/falwa/oopinterface.py:QGFieldBase.compute_lwa_only", "src/falwa/oopinterface.py:QGFieldBase._compute_lwa_and_barotropic_fluxes_wrapper", "src/falwa/f90_modules/compute_lwa_only_nhn22.f90", "src/falwa/f90_modules/compute_flux_dirinv.f90"]}
{"id": "C36", "title": "Barotropic zonal wind from the two code paths agree", "statement": "u_baro reported by compute_lwa_only equals u_baro reported by compute_lwa_and_barotropic_fluxes.", "quantifier": "all fields", "why_tests_cant": "differs in the top level and in the rows excluded by the boundary index", "anchors": ["src/falwa/oopinterface.py:QGFieldBase.compute_lwa_only", "src/falwa/oopinterface.py:QGFieldBase._compute_lwa_and_barotropic_fluxes_wrapper"]}
{"id": "C37", "title": "Flux computation is only possible after a converged reference state", "statement": "In every history of calls on a QGField, compute_lwa_and_barotropic_fluxes succeeds only if interpolate_fields ran before it and some compute_reference_states call completed with convergence and no compute_reference_states call ever failed to converge.", "quantifier": "all finite call histories and all convergence outcomes", "why_tests_cant": "history property over interleavings of calls and solver outcomes", "anchors": ["src/falwa/oopinterface.py:QGFieldBase.compute_lwa_and_barotropic_fluxes", "src/falwa/oopinterface.py:QGFieldBase.compute_reference_states", "src/falwa/oopinterface.py:QGFieldNH18._nonconvergence_notification"]}
{"id": "C38", "title": "A failed solve can be recovered from", "statement": "After a non-converged compute_reference_states, a later converged compute_reference_states on the same object makes flux computation available again.", "quantifier": "all call histories", "why_tests_cant": "needs a history with two solves of different outcome", "anchors": ["src/falwa/oopinterface.py:QGFieldNH18._nonconvergence_notification"]}
{"id": "C39", "title": "Reference states are never stale", "statement": "Flux computation never combines reference states computed before the most recent interpolate_fields with fields from that call.", "quantifier": "all call histories", "why_tests_cant": "history property", "anchors": ["src/falwa/oopinterface.py:QGFieldBase.interpolate_fields", "src/falwa/oopinterface.py:QGFieldBase.compute_lwa_and_barotropic_fluxes"]}
{"id": "C40", "title": "Layerwise outputs are only readable after they were computed", "statement": "Reading ua1, ua2, ep1, ep2, ep3 or stretch_term raises ValueError in every history without a completed compute_layerwise_lwa_fluxes and returns otherwise.", "quantifier": "all call histories", "why_tests_cant": "history property", "anchors": ["src/falwa/oopinterface.py:QGFieldBase.ua1", "src/falwa/oopinterface.py:QGFieldBase._compute_layerwise_lwa_fluxes_wrapper"]}
{"id": "C41", "title": "LWA computations refuse to run without a reference state", "statement": "compute_lwa_only and compute_layerwise_lwa_fluxes raise unless compute_reference_states was called before.", "quantifier": "all call histories", "why_tests_cant": "needs a call sequence no example uses", "anchors": ["src/falwa/oopinterface.py:QGFieldBase.compute_lwa_only", "src/falwa/oopinterface.py:QGFieldBase._compute_layerwise_lwa_fluxes_wrapper"]}
{"id": "C42", "title": "Southern results are the mirror image of northern results", "statement": "If the input state is mirror symmetric about the equator (u, theta even; v, QGPV odd), the LWA and flux terms reported for the Southern Hemisphere are the mirror images of those reported for the Northern Hemisphere (with the meridional momentum-flux terms exchanged), for QGFieldNH18.", "quantifier": "all mirror-symmetric states on odd grids", "why_tests_cant": "an equivariance over all states of a pipeline with many sign flips and index reversals", "anchors": ["src/falwa/oopinterface.py:QGFieldBase._compute_intermediate_barotropic_flux_terms", "src/falwa/oopinterface.py:QGFieldBase.compute_lwa_only", "src/falwa/oopinterface.py:QGFieldNH18._compute_reference_states"]}
{"id": "C43", "title": "A mirror symmetric state gives mirror symmetric results in QGFieldNHN22", "statement": "If the input state is mirror symmetric about the equator, QGFieldNHN22 reports mirror symmetric reference states, LWA, barotropic and layerwise flux terms and convergences, and an antisymmetric QGPV.", "quantifier": "all mirror-symmetric states", "why_tests_cant": "the sign of one array (absolute vorticity) decides it", "anchors": ["src/falwa/oopinterface.py:QGFieldNHN22._compute_reference_states", "src/falwa/oopinterface.py:QGFieldNHN22._compute_reference_states_nhn22_hemispheric_wrapper"]}
{"id": "C44", "title": "Convergence on the last permitted iteration counts as convergence", "statement": "If the iterative solver meets its tolerance within maxit iterations the reference state is reported as converged.", "quantifier": "all maxit >= 1 and all iteration counts at which the tolerance is met", "why_tests_cant": "boundary case nnn = maxit only", "anchors": ["src/falwa/f90_modules/compute_reference_states.f90", "src/falwa/oopinterface.py:QGFieldNH18._compute_reference_states"]}
{"id": "C45", "title": "Layerwise LWA kernel computes the displaced-contour integral and is non-negative", "statement": "For each longitude, latitude row in the analysed range and interior level, the kernel's two LWA components equal the sums of the PV excess over rows poleward with PV below Qref and equatorward with PV above Qref, both components are >= 0, rows and levels outside the analysed range are 0.", "quantifier": "all grid sizes, boundary index, fields and reference states", "why_tests_cant": "loop bounds and index offsets for all sizes", "anchors": ["src/falwa/f90_modules/compute_flux_dirinv.f90", "src/falwa/f90_modules/compute_lwa_only_nhn22.f90"]}
{"id": "C46", "title": "Both LWA kernels return the same LWA", "statement": "compute_lwa_only_nhn22 and compute_flux_dirinv_nshem return identical LWA components for identical inputs, in either hemisphere mode.", "quantifier": "all inputs", "why_tests_cant": "two separately maintained copies of a loop nest", "anchors": ["src/falwa/f90_modules/compute_flux_dirinv.f90", "src/falwa/f90_modules/compute_lwa_only_nhn22.f90"]}
{"id": "C47", "title": "The flux kernel only touches memory inside its arrays", "statement": "Every array access made by compute_flux_dirinv_nshem in northern mode is within the declared bounds for every boundary index.", "quantifier": "all sizes and boundary indices 0 <= jb", "why_tests_cant": "compiled without bounds checking, an access at index 0 silently reads a neighbouring element", "anchors": ["src/falwa/f90_modules/compute_flux_dirinv.f90"]}
{"id": "C48", "title": "Eddy momentum flux terms at row j are the flux at rows j+1 and j-1", "statement": "In the analysed rows ep2 equals u_e v_e cos^2 at the row to the north and ep3 at the row to the south, where u_e is the deviation from the reference wind of that same row.", "quantifier": "all inputs and analysed rows", "why_tests_cant": "wrong only at the boundary row", "anchors": ["src/falwa/f90_modules/compute_flux_dirinv.f90", "src/falwa/oopinterface.py:QGFieldBase.ep2", "src/falwa/oopinterface.py:QGFieldBase.ep3"]}
{"id": "C49", "title": "Zonal advective flux F1 equals reference wind times LWA and the eddy terms reduce to zero for an undisturbed flow", "statement": "ua1 = uref*(astar1+astar2) at every analysed point; if PV equals Qref, u equals uref, theta equals its reference and v is 0, all flux terms vanish.", "quantifier": "all inputs", "why_tests_cant": "for every state", "anchors": ["src/falwa/f90_modules/compute_flux_dirinv.f90"]}
{"id": "C50", "title": "Relative vorticity uses the longitude spacing", "statement": "The absolute vorticity computed inside interpolate_fields equals f plus the spherical curl computed with the actual longitude and latitude spacings.", "quantifier": "all nlon, nlat, winds", "why_tests_cant": "grids with nlon = 2(nlat-1) hide the difference; those are the ones in the tests", "anchors": ["src/falwa/f90_modules/compute_qgpv.f90", "src/falwa/f90_modules/compute_qgpv_direct_inv.f90", "src/falwa/utilities.py:curl_2d"]}
{"id": "C51", "title": "Contour area in the reference-state solver is the area poleward of the contour", "statement": "The cumulative area associated with the nn-th PV contour in the solver equals the area of cells with PV at or above that contour.", "quantifier": "all PV fields and npart", "why_tests_cant": "off-by-one in a cumulative sum, visible only against an independent definition", "anchors": ["src/falwa/f90_modules/compute_reference_states.f90", "src/falwa/f90_modules/compute_qref_and_fawa_first.f90"]}
{"id": "C52", "title": "Qref in the solver is monotone in latitude and within the PV range", "statement": "The QGPV reference state computed by the solver is non-decreasing poleward and lies between the smallest and largest PV of the level wherever a bracketing contour exists.", "quantifier": "all PV fields with positive cell areas", "why_tests_cant": "for every field", "anchors": ["src/falwa/f90_modules/compute_reference_states.f90"]}
{"id": "C53", "title": "A reported converged wind solves the discrete elliptic equation", "statement": "A red-black pass (two consecutive sweeps) of the SOR solver changes nothing exactly when the wind satisfies the discrete elliptic equation at every interior point and the boundary conditions; and a wind reported as converged has a residual below tol times the forcing.", "quantifier": "all PV, wind and temperature fields, grids, over-relaxation factors, tolerances", "why_tests_cant": "fixed-point characterisation for every state", "anchors": ["src/falwa/f90_modules/compute_reference_states.f90"]}
{"id": "C54", "title": "The direct inversion solves the elliptic equation for the reference wind", "statement": "If each LU inversion returns the exact inverse, the reference wind reported by QGFieldNHN22 is the unique solution, on the rows poleward of the boundary row and at all levels, of the discrete elliptic equation with the reported reference PV, zero wind on the ground and at the pole, the boundary wind derived from the circulation of absolute vorticity, and the prescribed shear at the top.", "quantifier": "all states, grid sizes, boundary rows at least 4 rows from the pole, static stabilities, constants", "why_tests_cant": "correctness of an elimination scheme spread over four routines for all sizes", "anchors": ["src/falwa/f90_modules/matrix_b4_inversion.f90", "src/falwa/f90_modules/matrix_after_inversion.f90", "src/falwa/f90_modules/upward_sweep.f90", "src/falwa/oopinterface.py:QGFieldNHN22._compute_reference_states_nhn22_hemispheric_wrapper"]}
{"id": "C55", "title": "Reference potential temperature keeps the hemispheric mean", "statement": "At each level the cos(lat)-weighted mean of the returned reference potential temperature equals the hemispheric mean potential temperature supplied to the solver.", "quantifier": "all inputs", "why_tests_cant": "normalisation identity for all fields", "anchors": ["src/falwa/f90_modules/compute_reference_states.f90", "src/falwa/f90_modules/upward_sweep.f90"]}
{"id": "C56", "title": "The equatorward boundary value of the reference wind is the one used as boundary condition", "statement": "The reference wind returned by the direct inversion at its equatorward boundary row equals the boundary condition used in the inversion at every level.", "quantifier": "all inputs and levels", "why_tests_cant": "only one row affected", "anchors": ["src/falwa/f90_modules/upward_sweep.f90", "src/falwa/f90_modules/matrix_b4_inversion.f90"]}
{"id": "C57", "title": "Static stability variables carry the right hemisphere label", "statement": "In the dataset returned by QGDataset for QGFieldNHN22, static_stability_n is the northern and static_stability_s the southern static stability.", "quantifier": "all fields", "why_tests_cant": "labels are only checked for presence in tests", "anchors": ["src/falwa/xarrayinterface.py:QGDataset.static_stability", "src/falwa/oopinterface.py:QGFieldNHN22.static_stability"]}
{"id": "C58", "title": "Extra dimensions are restored in the order they were flattened", "statement": "For every list of extra dimensions (time, ensemble member, ...), the element computed from the field at a coordinate combination is stored at that same combination in the output dataset.", "quantifier": "all numbers and sizes of extra dimensions", "why_tests_cant": "index bijection for every rank and shape", "anchors": ["src/falwa/xarrayinterface.py:QGDataset.__init__", "src/falwa/xarrayinterface.py:_MetadataServiceProvider"]}
{"id": "C59", "title": "integrate_budget closes the budget", "statement": "The terms returned by integrate_budget add up: the residual equals the LWA change minus all other integrated terms, and the integrals are additive over adjacent time windows.", "quantifier": "all datasets, time grids and windows", "why_tests_cant": "identity for all series", "anchors": ["src/falwa/xarrayinterface.py:integrate_budget"]}
{"id": "C60", "title": "hemisphere_to_globe is a mirror extension", "statement": "The output contains the input unchanged on its hemisphere, latitudes are symmetric and keep their order, every variable other than v at -lat equals its value at lat, v changes sign, and the equator appears once. A hemisphere that neither begins nor ends at the equator is refused.", "quantifier": "all hemispheric grids (either order, either hemisphere) and variables", "why_tests_cant": "all grid orders", "anchors": ["src/falwa/xarrayinterface.py:hemisphere_to_globe"]}
{"id": "C61", "title": "Variable-name resolution honours overrides and picks the first known name", "statement": "_get_name returns the override for the first candidate name when one is given (and raises if it is absent from the dataset), otherwise the first candidate present, otherwise raises KeyError.", "quantifier": "all name lists, datasets, override maps", "why_tests_cant": "decision rule over all inputs", "anchors": ["src/falwa/xarrayinterface.py:_get_name"]}
{"id": "C62", "title": "Hemispheric wrapper assembles both hemispheres consistently", "statement": "qgpv_eqlat_lwa returns, in the southern rows, the equivalent-latitude reference and local wave activity of the southern domain; in the northern rows the reference computed for the mirrored field (rows reversed, sign reversed) put back in order and sign, and the wave activity of the northern domain; rows in neither domain (the equator row for odd nlat) hold zero. Hence the mirrored field has the mirrored reference and the mirrored wave activity.", "quantifier": "all fields, grids, nlat (even or odd), nlat_s, n_points", "why_tests_cant": "index reversal and sign bookkeeping for all sizes", "anchors": ["src/falwa/wrapper.py:qgpv_eqlat_lwa"]}
{"id": "C63", "title": "Wrapper variants accept every documented option", "statement": "The wrappers that document a vgrad argument accept one.", "quantifier": "all calls with vgrad given", "why_tests_cant": "no test calls them", "anchors": ["src/falwa/wrapper.py:eqvlat_bracket_hemispheric", "src/falwa/wrapper.py:qgpv_eqlat_lwa_options"]}
{"id": "C64", "title": "calculate_covariance is the sample covariance per cell", "statement": "The value at each cell equals the covariance over time of the two series at that cell and is symmetric in the two fields.", "quantifier": "all numbers of times and cells", "why_tests_cant": "diagonal-offset indexing of a joint matrix for all sizes", "anchors": ["src/falwa/stat_utils.py:calculate_covariance"]}
{"id": "C65", "title": "gridfill leaves complete levels untouched", "statement": "Levels without missing values are returned unchanged, and only missing values are altered.", "quantifier": "all fields and missing-value masks", "why_tests_cant": "for all masks", "anchors": ["src/falwa/preprocessing.py:gridfill_each_level"]}
{"id": "C66", "title": "The legacy linear system is the difference equation it stands for", "statement": "The (latitude, level) to row-number map used to assemble the legacy linear system is a bijection onto 0..jmax*kmax-1; a vector solves the assembled sparse system exactly when the array it is mapped back to vanishes at the equator and pole, satisfies the five-point equation at every interior point, the top gradient condition, and the chosen lower boundary condition.", "quantifier": "all numbers of rows and levels, all coefficients, right sides and vectors, both boundary conditions", "why_tests_cant": "all sizes", "anchors": ["src/falwa/legacy/beta_version.py:input_jk_output_index", "src/falwa/legacy/beta_version.py:solve_uref_both_bc"]}
{"id": "C67", "title": "LWA depends continuously on the field", "statement": "Changing the vorticity field changes the LWA returned at any grid point by at most the dmu-weighted sum of absolute changes along that longitude (1-Lipschitz in the weighted column L1 norm).", "quantifier": "all pairs of fields, all non-negative dmu, all grid points", "why_tests_cant": "a Lipschitz bound quantifies over all pairs of fields including contour topology changes; tests sample a few perturbations", "anchors": ["src/falwa/basis.py:lwa"]}
{"id": "C68", "title": "The reference profile preserves area", "statement": "At a latitude whose southern polar cap has exactly the area of the cells below a contour value, qref equals that contour value.", "quantifier": "all fields, areas, contour counts and latitudes in [-90, 90]", "why_tests_cant": "area matching must hold for every distribution of values and areas", "anchors": ["src/falwa/basis.py:eqvlat_fawa"]}
{"id": "C69", "title": "FAWA is the circulation difference and vanishes for an undisturbed flow", "statement": "fawa returned by eqvlat_fawa is (circulation above the contour minus circulation north of its equivalent latitude)/(2 pi a), independent of adding a constant to vorticity; it is zero when the field has no contours to displace.", "quantifier": "all fields and area arrays", "why_tests_cant": "tests use global absolute vorticity whose total circulation vanishes, which hides the dependence on the global mean", "anchors": ["src/falwa/basis.py:eqvlat_fawa"]}
{"id": "C70", "title": "curl_2d annihilates discrete gradients", "statement": "If (u,v) is the centred-difference gradient of any scalar potential on the same grid, curl_2d returns exactly 0 at every row at least two rows away from the poles.", "quantifier": "all potentials, grids, longitudes and rows 2..nlat-3", "why_tests_cant": "a cancellation identity between the two wrap-around difference stencils for every field", "anchors": ["src/falwa/utilities.py:curl_2d"]}
{"id": "C71", "title": "curl_2d of solid-body rotation", "statement": "For u = U cos(lat), v = 0 on any uniform latitude grid, curl_2d returns (2U/a) sin(lat) times the fixed factor sin(2 dphi)/(2 dphi) on every interior row.", "quantifier": "all U, radii, uniform latitude grids, interior rows", "why_tests_cant": "exact discretisation factor for every spacing; a numerical test only sees an approximation", "anchors": ["src/falwa/utilities.py:curl_2d"]}
{"id": "C72", "title": "meridional_divergence is in flux form", "statement": "The cos-weighted sum of meridional_divergence over interior rows equals the difference of the fluxes f cos(lat) at the two northernmost and two southernmost rows divided by 2 a dphi.", "quantifier": "all fields, nlat >= 3, longitudes", "why_tests_cant": "telescoping identity for every grid size", "anchors": ["src/falwa/utilities.py:meridional_divergence"]}
{"id": "C73", "title": "Hemispheric views never resize stored arrays", "statement": "No history of reads and assignments through the hemispheric properties, including assignments that fail with a shape error, changes the number of latitude rows of any stored array.", "quantifier": "all histories of operations, all storage classes and initial contents", "why_tests_cant": "history property including failing operations", "anchors": ["src/falwa/data_storage.py:NHemProperty", "src/falwa/data_storage.py:SHemProperty"]}
{"id": "C74", "title": "Construction rejects fields of the wrong shape", "statement": "If QGField construction succeeds then u_field, v_field and t_field each have shape (nlev, nlat, nlon).", "quantifier": "all shapes of the three fields and all grids", "why_tests_cant": "all shapes; the temperature shape is only checked after broadcasting", "anchors": ["src/falwa/oopinterface.py:QGFieldBase.__init__", "src/falwa/oopinterface.py:QGFieldBase._check_dimension_of_fields"]}
{"id": "C75", "title": "Interpolated fields are readable in northern-only mode on every accepted grid", "statement": "With northern_hemisphere_results_only=True, qgpv, interpolated_u, interpolated_v and interpolated_theta can be read after interpolate_fields, for every accepted latitude grid including even ones.", "quantifier": "all accepted grids", "why_tests_cant": "depends on the combination of grid parity and mode for every size", "anchors": ["src/falwa/oopinterface.py:QGFieldBase._return_interp_variables", "src/falwa/oopinterface.py:QGFieldBase.qgpv"]}
{"id": "C76", "title": "Interpolating results back to the user's grid keeps them in range", "statement": "For every accepted grid inside [-90, 90] degrees, each value returned to the user lies between the minimum and maximum of the stored result column; in particular non-negative LWA stays non-negative on even grids.", "quantifier": "all accepted grids, both modes, all stored results", "why_tests_cant": "no extrapolation must occur for any grid and any result", "anchors": ["src/falwa/oopinterface.py:QGFieldBase._return_interp_variables", "src/falwa/oopinterface.py:QGFieldBase._interp_back"]}
{"id": "C77", "title": "Layerwise fluxes can be computed on every accepted grid", "statement": "After interpolate_fields, compute_layerwise_lwa_fluxes() with its default ncforce returns, whether the latitude grid contains the equator or not.", "quantifier": "all call histories, kernels and grids", "why_tests_cant": "depends on the parity of the grid together with the default of an argument, in every history", "anchors": ["src/falwa/oopinterface.py:QGFieldBase._compute_layerwise_lwa_fluxes_wrapper"]}
{"id": "C78", "title": "Northern-only mode works on grids without the equator", "statement": "With northern_hemisphere_results_only=True and an even number of latitudes, interpolate_fields, compute_reference_states and compute_lwa_and_barotropic_fluxes called in this order can succeed.", "quantifier": "all call histories, fields and kernels", "why_tests_cant": "no example combines the two options; the claim is about every history", "anchors": ["src/falwa/oopinterface.py:QGFieldBase._return_interp_variables", "src/falwa/oopinterface.py:QGFieldBase.qgpv"]}
{"id": "C79", "title": "Reading results before they are computed raises", "statement": "Reading qref, uref or ptref raises ValueError in every history without compute_reference_states.", "quantifier": "all call histories", "why_tests_cant": "history property", "anchors": ["src/falwa/oopinterface.py:QGFieldBase.qref", "src/falwa/data_storage.py:ReferenceStatesStorage"]}
{"id": "C80", "title": "LWA stays available after a failed solve", "statement": "In every history in which compute_reference_states reported non-convergence (by exception or warning), compute_lwa_only returns.", "quantifier": "all call histories", "why_tests_cant": "history property", "anchors": ["src/falwa/oopinterface.py:QGFieldBase.compute_lwa_only", "src/falwa/oopinterface.py:QGFieldBase.nonconvergent_uref"]}
{"id": "C81", "title": "Reported barotropic quantities use the same vertical weights", "statement": "The column average of LWA and zonal wind reported by the two ways of obtaining it (inside the kernel, and by averaging the layerwise field in python) are the same number.", "quantifier": "all grids, fields, both hemispheres, evenly spaced or default levels", "why_tests_cant": "two implementations have to agree for every level set", "anchors": ["src/falwa/oopinterface.py:QGFieldBase._vertical_average", "src/falwa/f90_modules/compute_lwa_only_nhn22.f90"]}
{"id": "C82", "title": "The non-conservative forcing term is the displaced-contour integral of the forcing", "statement": "At every analysed row and interior level ncforce3d is the integral of the forcing over the parcels displaced across the row's contour with the sign of the displacement; it is linear in the forcing and zero without forcing.", "quantifier": "all PV fields, reference states, forcings, grids", "why_tests_cant": "holds for every field; the masks depend on PV, not on the forcing", "anchors": ["src/falwa/f90_modules/compute_flux_dirinv.f90"]}
{"id": "C83", "title": "Meridional momentum flux terms and heat flux follow their formulas", "statement": "ep2 and ep3 at an analysed row are the momentum fluxes u'v'cos^2 on the row poleward and equatorward of it, and ep4 is the low-level meridional heat flux, computed with departures from the reference state.", "quantifier": "all fields, grids, rows", "why_tests_cant": "index arithmetic for every grid size", "anchors": ["src/falwa/f90_modules/compute_flux_dirinv.f90"]}
{"id": "C84", "title": "Nothing is reported outside the analysed rows", "statement": "Outside the rows between the equatorward boundary and the pole and the interior levels, every flux term of the kernel is zero.", "quantifier": "all rows, levels, boundary index jb including 0", "why_tests_cant": "holds for every grid, including the smallest boundary index, and depends on memory layout", "anchors": ["src/falwa/f90_modules/compute_flux_dirinv.f90"]}
{"id": "C86", "title": "QGPV is absolute vorticity plus the stretching term", "statement": "On interior levels the QGPV after interpolate_fields is the absolute vorticity plus f (NHN22) or the zonal-mean absolute vorticity (NH18) times the vertical stretching of the potential temperature anomaly; the pole rows carry the zonal mean of the adjacent row; the lowest and top level are zero.", "quantifier": "all fields, grids, levels", "why_tests_cant": "formula for every grid size and field", "anchors": ["src/falwa/f90_modules/compute_qgpv.f90", "src/falwa/f90_modules/compute_qgpv_direct_inv.f90"]}
{"id": "C87", "title": "Mirroring the state negates and mirrors QGPV", "statement": "If u and theta are mirrored about the equator and v is mirrored with its sign changed, then the QGPV is the negative of the mirrored QGPV (with hemispheric stratification exchanged for NHN22).", "quantifier": "all states on grids that contain the equator", "why_tests_cant": "metamorphic relation over all states", "anchors": ["src/falwa/f90_modules/compute_qgpv.f90", "src/falwa/f90_modules/compute_qgpv_direct_inv.f90"]}
{"id": "C88", "title": "Solid-body rotation has QGPV proportional to sin(latitude)", "statement": "For u = U cos(lat), v = 0 and theta equal to its reference profile, QGPV is (2 Omega + (U/a) sin(2 dphi)/dphi) sin(lat) at every interior row of every level, for both classes.", "quantifier": "all U, grid sizes, levels", "why_tests_cant": "exact discrete identity for every resolution", "anchors": ["src/falwa/f90_modules/compute_qgpv.f90", "src/falwa/f90_modules/compute_qgpv_direct_inv.f90"]}
{"id": "C89", "title": "QGPV does not depend on where longitude starts", "statement": "Relabelling the longitudes of u, v and theta by a rotation relabels the QGPV in the same way, pole rows included.", "quantifier": "all fields and grids", "why_tests_cant": "wrap-around columns are coded separately; must agree for every field", "anchors": ["src/falwa/f90_modules/compute_qgpv.f90", "src/falwa/f90_modules/compute_qgpv_direct_inv.f90"]}
{"id": "C85", "title": "Northern results do not depend on northern_hemisphere_results_only", "statement": "With the same input, an object in northern-only mode and one that computes both hemispheres report the same reference states, LWA, barotropic and layerwise flux terms, stretching term and convergences at every latitude row strictly north of the equator.", "quantifier": "all states, grids with the equator in the middle, boundary indices, forcings, solvers", "why_tests_cant": "the flag changes array sizes and every slice; agreement must hold at each row for every state", "anchors": ["src/falwa/oopinterface.py:QGFieldBase._compute_intermediate_barotropic_flux_terms", "src/falwa/oopinterface.py:QGFieldBase._compute_layerwise_lwa_fluxes_wrapper", "src/falwa/oopinterface.py:QGFieldBase._compute_stretch_term", "src/falwa/data_storage.py"]}
{"id": "C90", "title": "Hemispheric mean potential temperatures lie within the data", "statement": "Each hemispheric mean potential temperature used for the static stability lies between the smallest and largest potential temperature of the level; in particular an isothermal level keeps its value.", "quantifier": "all potential temperature fields and grids", "why_tests_cant": "normalisation of a weighted mean for every grid, including grids that are not symmetric about the equator", "anchors": ["src/falwa/oopinterface.py:QGFieldBase._compute_static_stability_func"]}
{"id": "C91", "title": "compute_lwa_only reports the LWA of the full computation", "statement": "For the same object state, compute_lwa_only and compute_lwa_and_barotropic_fluxes leave identical lwa and lwa_baro, in both hemispheres and both modes, although one averages vertically in Fortran and the other in python.", "quantifier": "all states and reference states", "why_tests_cant": "two separate implementations must agree for every input", "anchors": ["src/falwa/oopinterface.py:QGFieldBase.compute_lwa_only", "src/falwa/oopinterface.py:QGFieldBase._compute_intermediate_barotropic_flux_terms", "src/falwa/f90_modules/compute_lwa_only_nhn22.f90"]}
{"id": "C92", "title": "The two LWA components stored by compute_lwa_only add up to the LWA", "statement": "After compute_lwa_only the cyclonic and anticyclonic components stored in layerwise_flux_terms_storage add up to lwa at every grid point.", "quantifier": "all states, rows and levels", "why_tests_cant": "a mistyped attribute silently creates a new one; the sum must hold in both hemispheres", "anchors": ["src/falwa/oopinterface.py:QGFieldBase.compute_lwa_only", "src/falwa/data_storage.py:LayerwiseFluxTermsStorage"]}
{"id": "C93", "title": "Layerwise and barotropic calls report the same three-dimensional LWA", "statement": "compute_layerwise_lwa_fluxes and compute_lwa_and_barotropic_fluxes report the same lwa at every grid point.", "quantifier": "all states and reference states", "why_tests_cant": "one takes an absolute value of the assembled field, the other does not", "anchors": ["src/falwa/oopinterface.py:QGFieldBase.compute_layerwise_lwa_fluxes", "src/falwa/oopinterface.py:QGFieldBase.compute_lwa_and_barotropic_fluxes"]}
{"id": "C94", "title": "Barotropic LWA is non-negative", "statement": "lwa_baro is >= 0 at every grid point of both hemispheres.", "quantifier": "all states and reference states, grids with a positive spacing", "why_tests_cant": "holds for every PV field and reference state, also unphysical ones", "anchors": ["src/falwa/oopinterface.py:QGFieldBase._compute_intermediate_barotropic_flux_terms", "src/falwa/f90_modules/compute_flux_dirinv.f90"]}
{"id": "C95", "title": "NH18 reference wind and temperature are in thermal wind balance", "statement": "The reference potential temperature and reference zonal wind returned by QGFieldNH18 satisfy the discrete thermal wind relation at every interior point.", "quantifier": "all inputs, grids and interior points", "why_tests_cant": "must hold for every wind, also the zero wind of a non-converged run", "anchors": ["src/falwa/f90_modules/compute_reference_states.f90:compute_reference_states"]}
{"id": "C96", "title": "Edges of the NH18 reference wind", "statement": "The reference wind returned is the zonal-mean wind on the equator, zero on the ground away from the equator, and linearly extrapolated at the pole; its equatorial value is the boundary condition of the inversion.", "quantifier": "all inputs, converged or not", "why_tests_cant": "the two branches of convergence and all levels", "anchors": ["src/falwa/f90_modules/compute_reference_states.f90:compute_reference_states"]}
{"id": "C97", "title": "The discrete reference wind is unique", "statement": "For a given PV reference state, boundary wind and top temperature there is at most one wind satisfying the discrete elliptic equation and its boundary conditions.", "quantifier": "all grids, positive static stabilities and boundary data", "why_tests_cant": "maximum principle over all winds", "anchors": ["src/falwa/f90_modules/compute_reference_states.f90:compute_reference_states"]}
{"id": "C98", "title": "Reference states depend only on the values in each latitude circle", "statement": "Permuting values along longitude, independently in every latitude circle, level and field (in particular rotating the globe), leaves Qref, Uref, PTref and the iteration count unchanged.", "quantifier": "all fields and all permutations", "why_tests_cant": "a permutation per row and level", "anchors": ["src/falwa/f90_modules/compute_reference_states.f90:compute_reference_states"]}
{"id": "C99", "title": "Reference states do not depend on uninitialised memory", "statement": "Two runs of the NH18 solver with the same inputs give the same reference states whatever the memory of its work arrays held.", "quantifier": "all inputs and memory contents", "why_tests_cant": "memory contents cannot be controlled in a test", "anchors": ["src/falwa/f90_modules/compute_reference_states.f90:compute_reference_states"]}
{"id": "C100", "title": "Top temperature gradient of the reference state", "statement": "When the NH18 solver converges, at the last interior level the meridional differences of the reference potential temperature equal those of the zonal-mean potential temperature.", "quantifier": "all inputs", "why_tests_cant": "needs every temperature field and every tolerance", "anchors": ["src/falwa/f90_modules/compute_reference_states.f90:compute_reference_states"]}
{"id": "C101", "title": "Iteration count and non-convergence", "statement": "The iteration count reported by the solver is the first sweep from 2 on that passes the residual test, or maxits + 1, in which case the reference wind is zero in every row strictly between equator and pole.", "quantifier": "all inputs and maxits", "why_tests_cant": "the failing branch depends on the trajectory", "anchors": ["src/falwa/f90_modules/compute_reference_states.f90:compute_reference_states"]}
{"id": "C102", "title": "Equatorial boundary condition of the reference wind inversion", "statement": "Whenever the area below the second PV contour exceeds a hemisphere, the wind imposed on the equator at an interior level is the zonal-mean wind there plus the difference between the circulation of the equivalent contour and that of the northern hemisphere, divided by the length of the equator.", "quantifier": "all PV and wind fields, grids, levels", "why_tests_cant": "depends on the whole PV distribution through the contour and its weight", "anchors": ["src/falwa/f90_modules/compute_reference_states.f90:compute_reference_states"]}
{"id": "C103", "title": "No matrix handed to LAPACK is singular", "statement": "Every matrix that the direct inversion passes to dgetrf/dgetri is nonsingular, so that the ignored info flag never hides a failure.", "quantifier": "all states, grid sizes, levels, positive static stabilities", "why_tests_cant": "nonsingularity depends on the data at every level and follows from a maximum principle", "anchors": ["src/falwa/oopinterface.py:QGFieldNHN22._compute_reference_states_nhn22_hemispheric_wrapper", "src/falwa/f90_modules/matrix_b4_inversion.f90"]}
{"id": "C104", "title": "The boundary wind of the direct inversion has the circulation of the polar cap", "statement": "The wind imposed on the equatorward boundary row, with the planetary rotation added, has the circulation computed from absolute vorticity: (u + omega a cos phi) 2 pi a cos phi = C.", "quantifier": "all states and boundary rows", "why_tests_cant": "a missing factor cos(phi) changes the solution smoothly", "anchors": ["src/falwa/f90_modules/matrix_b4_inversion.f90", "src/falwa/f90_modules/upward_sweep.f90"]}
{"id": "C105", "title": "The shear at the top is in thermal wind balance with the temperature of the same row", "statement": "At every row the vertical shear of the reference wind at the top is the thermal wind of the zonal-mean potential temperature gradient at that row.", "quantifier": "all states, rows and boundary rows", "why_tests_cant": "an index shift by the boundary offset leaves plausible values", "anchors": ["src/falwa/f90_modules/compute_qref_and_fawa_first.f90"]}
{"id": "C106", "title": "Reference wind and temperature of QGFieldNHN22 are in thermal wind balance", "statement": "At inner rows and levels of both hemispheres the centred latitudinal difference of the reported reference potential temperature equals the thermal wind expression of the centred vertical difference of the reported reference wind.", "quantifier": "all states, rows and levels", "why_tests_cant": "identity across two arrays at every point", "anchors": ["src/falwa/f90_modules/upward_sweep.f90", "src/falwa/oopinterface.py:QGFieldNHN22._compute_reference_states"]}
{"id": "C107", "title": "The reference temperature keeps the hemispheric mean potential temperature", "statement": "The cos-weighted mean of the reported reference potential temperature over the rows of a hemisphere equals that hemisphere's mean potential temperature on every level.", "quantifier": "all states and levels", "why_tests_cant": "which hemisphere's average reaches the kernel only shows for asymmetric states", "anchors": ["src/falwa/f90_modules/upward_sweep.f90", "src/falwa/oopinterface.py:QGFieldNHN22._compute_reference_states_nhn22_hemispheric_wrapper"]}
{"id": "C108", "title": "Both classes report the same reference PV", "statement": "For the same QGPV and number of contours, QGFieldNH18 and QGFieldNHN22 report the same reference PV at every row.", "quantifier": "all PV fields and grids", "why_tests_cant": "two separately written Fortran routines must agree on every input", "anchors": ["src/falwa/f90_modules/compute_qref_and_fawa_first.f90", "src/falwa/f90_modules/compute_reference_states.f90"]}
{"id": "C109", "title": "Mirroring the input mirrors the results of QGFieldNH18", "statement": "For QGFieldNH18 with results in both hemispheres, reflecting the input about the equator (u and theta reflected, v and the non-conservative PV tendency reflected with a change of sign) reflects every result at every latitude except the equator itself: QGPV changes sign, Qref, Uref, PTref, LWA (three-dimensional and barotropic), zonal wind, advective fluxes, ep1, ep4, the flux divergence and convergence terms and the stretch term are reflected, the meridional flux vector changes sign, and the momentum fluxes ep2 and ep3 change places and sign. No symmetry of the input is needed.", "quantifier": "every symmetric grid with results in both hemispheres, every input state, forcing, number of iterations and tolerance of the reference state solver", "why_tests_cant": "a relation between two runs, for all states; tests compare single runs with stored numbers", "anchors": ["src/falwa/oopinterface.py: QGFieldNH18._compute_reference_states", "src/falwa/oopinterface.py: QGFieldBase.compute_lwa_and_barotropic_fluxes", "src/falwa/oopinterface.py: QGFieldBase.compute_lwa_only"]}
{"id": "C110", "title": "Mirroring the input mirrors the results of QGFieldNHN22", "statement": "The same for QGFieldNHN22. It holds for the domain averages (they are exchanged), the QGPV, Qref, the LWA, the barotropic zonal wind and the non-conservative force; it fails for the reference temperature, because the southern hemisphere is given the northern mean potential temperature; the flux terms are reflected whenever the reference wind and temperature are.", "quantifier": "every symmetric grid with results in both hemispheres and equatorial boundary off the equator, every input state", "why_tests_cant": "a relation between two runs, for all states", "anchors": ["src/falwa/oopinterface.py: QGFieldNHN22._compute_reference_states", "src/falwa/oopinterface.py: QGFieldNHN22._compute_reference_states_nhn22_hemispheric_wrapper"]}
{"id": "C111", "title": "The orientation of the input does not matter to QGDataset", "statement": "QGDataset hands the same arrays, with latitude ascending and pressure descending, to the field objects whether the input has its latitudes or pressure levels in ascending or descending order.", "quantifier": "all datasets, all combinations of orders, all extra dimensions", "why_tests_cant": "all combinations of orientations and shapes", "anchors": ["src/falwa/xarrayinterface.py:QGDataset.__init__"]}
{"id": "C112", "title": "integrate_budget reports the length of the window in seconds", "statement": "The attribute integration_seconds is the time between the first and the last date of the window in seconds.", "quantifier": "all windows and all time resolutions of the dates", "why_tests_cant": "depends on the resolution of the time coordinate, tests use one", "anchors": ["src/falwa/xarrayinterface.py:integrate_budget"]}
{"id": "C113", "title": "QGDataset accepts any mix of datasets and arrays", "statement": "Each of u, v and t may be given as a DataArray or inside a Dataset; the same data gives the same QGDataset in whichever form it is given.", "quantifier": "all data and all combinations of forms", "why_tests_cant": "combinations of argument kinds", "anchors": ["src/falwa/xarrayinterface.py:QGDataset.__init__"]}
{"id": "C114", "title": "The forcing from heating works for every dataset", "statement": "QGDataset.compute_ncforce_from_heating_rate returns, for every field, the forcing its field object computes from the heating at the coordinates of that field.", "quantifier": "all datasets and heating rates, full globe and northern hemisphere only", "why_tests_cant": "shape of the result in the northern-only mode", "anchors": ["src/falwa/xarrayinterface.py:QGDataset.compute_ncforce_from_heating_rate", "src/falwa/oopinterface.py:QGFieldBase.compute_ncforce_from_heating_rate"]}
{"id": "C115", "title": "The hemispheric QGPV variants agree", "statement": "qgpv_eqlat_lwa, qgpv_eqlat_lwa_ncforce and qgpv_eqlat_lwa_options (without vgrad) return the same reference and wave activity for the same field, and the extra forcing output is the integral of the forcing over the displaced region of each hemisphere.", "quantifier": "all fields, forcings, grids, nlat_s, n_points", "why_tests_cant": "agreement of separately written functions on every input", "anchors": ["src/falwa/wrapper.py:qgpv_eqlat_lwa", "src/falwa/wrapper.py:qgpv_eqlat_lwa_ncforce", "src/falwa/wrapper.py:qgpv_eqlat_lwa_options"]}
{"id": "C116", "title": "Recomputing wave activity from the returned reference changes nothing", "statement": "Passing the reference returned by qgpv_eqlat_lwa to qgpv_input_qref_to_compute_lwa with the same field gives the wave activity qgpv_eqlat_lwa returned.", "quantifier": "all fields, grids, nlat_s at most half of nlat", "why_tests_cant": "round trip between two functions for every input", "anchors": ["src/falwa/wrapper.py:qgpv_input_qref_to_compute_lwa", "src/falwa/wrapper.py:qgpv_eqlat_lwa"]}
{"id": "C117", "title": "barotropic_eqlat_lwa agrees with BarotropicField", "statement": "For the same grid, area weights and number of partitions, the wrapper function returns the equivalent latitudes and wave activity that BarotropicField reports.", "quantifier": "all fields, grids, options", "why_tests_cant": "agreement of two interfaces on every input", "anchors": ["src/falwa/wrapper.py:barotropic_eqlat_lwa", "src/falwa/barotropic_field.py:BarotropicField"]}
{"id": "C118", "title": "Surface wave activity vanishes exactly for an undisturbed temperature", "statement": "theta_lwa is zero at a row and longitude exactly when the air poleward of the row is colder, and the air equatorward warmer, than the row's reference temperature, in both hemispheres.", "quantifier": "all temperature fields and grids", "why_tests_cant": "both directions, for every field, in both hemispheres", "anchors": ["src/falwa/wrapper.py:theta_lwa"]}
{"id": "C119", "title": "eqvlat_hemispheric returns values of the field", "statement": "The hemispheric reference profile lies between the smallest and largest value of the field in that hemisphere, and equals the one of qgpv_eqlat_lwa.", "quantifier": "all fields and grids", "why_tests_cant": "sign bookkeeping for every field", "anchors": ["src/falwa/wrapper.py:eqvlat_hemispheric", "src/falwa/wrapper.py:qgpv_eqlat_lwa"]}
{"id": "C120", "title": "barotropic_input_qref_to_compute_lwa returns the wave activity", "statement": "The function returns the local wave activity array relative to the given reference.", "quantifier": "all fields and references", "why_tests_cant": "for all inputs", "anchors": ["src/falwa/wrapper.py:barotropic_input_qref_to_compute_lwa"]}
{"id": "C121", "title": "The hemispheric reference is ordered and within the data", "statement": "In each hemisphere the reference returned by qgpv_eqlat_lwa does not decrease northward and lies between the extreme values of the field in that hemisphere.", "quantifier": "all fields, grids with nondecreasing latitudes, area weights not exceeding the sphere", "why_tests_cant": "for all fields and resolutions", "anchors": ["src/falwa/wrapper.py:qgpv_eqlat_lwa"]}
{"id": "C122", "title": "Covariance map obeys the laws of a covariance", "statement": "The covariance of a field with itself is nonnegative and zero exactly where the series is constant; scaling and shifting one field scales the map; the squared covariance is at most the product of the variances.", "quantifier": "all numbers of times (at least two) and cells, all fields", "why_tests_cant": "inequalities for all fields", "anchors": ["src/falwa/stat_utils.py:calculate_covariance"]}
{"id": "C123", "title": "Legacy reference states are the unique solution of the discretised elliptic problem", "statement": "Given an exact linear solver, nonnegative static-stability factors and ascending latitudes, the returned no-slip and adiabatic reference winds are zonal-mean wind minus the wind of the one and only array solving the discretised equation with the given boundary data, interpolated linearly to the input latitudes of the northern hemisphere; the southern part of every returned array is zero.", "quantifier": "all grid sizes, wave activities, static stabilities, boundary data and both lower boundary conditions", "why_tests_cant": "regularity of the matrix for all sizes and coefficients", "anchors": ["src/falwa/legacy/beta_version.py:solve_uref_both_bc"]}
{"id": "C124", "title": "Legacy temperature correction: shape and mean", "statement": "The temperature correction vanishes at the lowest and the two highest levels, has mean zero over the solver's rows at every level, is linear between every other row, and is interpolated linearly to the input latitudes.", "quantifier": "all inputs for which the function returns", "why_tests_cant": "for all sizes and fields", "anchors": ["src/falwa/legacy/beta_version.py:solve_uref_both_bc"]}
{"id": "C125", "title": "Legacy temperature correction is in thermal-wind balance with the wind correction", "statement": "At every inner level the temperature contrast between the rows next to a computed row equals the thermal-wind value of the wind shear there, with the Coriolis parameter and cosine of that row.", "quantifier": "all sizes, all winds", "why_tests_cant": "for all sizes and fields", "anchors": ["src/falwa/legacy/beta_version.py:solve_uref_both_bc"]}
{"id": "C126", "title": "Rotating the longitudes of the input rotates the results", "statement": "If every input field is shifted by any number of columns around the circle, the domain averages and the reference states stay exactly the same and QGPV, LWA, barotropic and layerwise fluxes, their divergences and the stretching term are shifted by the same number of columns.", "quantifier": "all shifts, states, heatings, grid sizes, both QGField classes, global and northern-only modes", "why_tests_cant": "invariance for every state, shift and resolution", "anchors": ["src/falwa/oopinterface.py:QGFieldNH18", "src/falwa/oopinterface.py:QGFieldNHN22", "src/falwa/f90_modules"]}
{"id": "C127", "title": "A zonally uniform state has zonally uniform results", "statement": "If u, v, theta and the heating do not depend on longitude, neither do QGPV, LWA, fluxes and flux vectors, and the convergence of the zonal flux is exactly zero.", "quantifier": "all zonally uniform states, grid sizes, both QGField classes, both modes", "why_tests_cant": "for every state and resolution", "anchors": ["src/falwa/oopinterface.py:QGFieldBase.compute_lwa_and_barotropic_fluxes", "src/falwa/oopinterface.py:QGFieldBase.compute_layerwise_lwa_fluxes"]}
{"id": "C128", "title": "Rotating the input arrays of a QGField rotates everything read from it", "statement": "If u, v, T and the forcing are shifted by any number of columns around the circle, constructing a QGField, running it and reading its properties ends the same way as before: the same exception, or every map shifted by the same number of columns with unchanged reference states and static stabilities, on the user's own latitude rows.", "quantifier": "all shifts, data, forcings, grids with and without the equator, vertical grids, both classes, both modes", "why_tests_cant": "a statement about every dataset and resolution through interpolation, analysis and interpolation back", "anchors": ["src/falwa/oopinterface.py:QGFieldBase.__init__", "src/falwa/oopinterface.py:QGFieldBase.interpolate_fields", "src/falwa/oopinterface.py:QGFieldBase._return_interp_variables"]}
{"id": "C129", "title": "Mirroring the input arrays of a global QGField mirrors everything read from it", "statement": "With latitudes symmetric about the equator, reversing the rows of u, v, T and changing the sign of v gives results with reversed rows (signs as physics demands), on every row away from the equator and for every property.", "quantifier": "all data, symmetric grids, vertical grids, both classes", "why_tests_cant": "a statement about every dataset and resolution", "anchors": ["src/falwa/oopinterface.py:QGFieldBase.__init__", "src/falwa/oopinterface.py:QGFieldBase._return_interp_variables", "src/falwa/oopinterface.py:QGFieldNH18", "src/falwa/oopinterface.py:QGFieldNHN22"]}
{"id": "C130", "title": "A northern-only QGField reports what a global one reports on the northern rows", "statement": "Built from the same arguments, the object with northern_hemisphere_results_only=True reports, in row r of every result, what the object without it reports in row nlat//2 + r, away from the equator.", "quantifier": "all data, symmetric latitude grids, vertical grids, both classes", "why_tests_cant": "agreement of two configurations for every dataset", "anchors": ["src/falwa/oopinterface.py:QGFieldBase.northern_hemisphere_results_only", "src/falwa/oopinterface.py:QGFieldBase._return_interp_variables"]}
{"id": "C131", "title": "Exactly which arguments lead to a complete analysis", "statement": "A QGField built on ordered latitudes completes construction, interpolation, reference states and fluxes exactly when it has two levels, the pressure does not increase at the bottom, the top of the data reaches the top of the analysis and northern-only mode is not combined with a grid without the equator; then every property can be read.", "quantifier": "all arguments with ordered latitudes and sizes large enough for the kernels", "why_tests_cant": "an equivalence over every argument combination", "anchors": ["src/falwa/oopinterface.py:QGFieldBase.__init__", "src/falwa/oopinterface.py:QGFieldBase._check_valid_plev", "src/falwa/oopinterface.py:QGFieldBase._check_and_flip_ylat"]}
{"id": "C132", "title": "Attributes derived from the grid mean what they say", "statement": "dphi is the spacing in radians of the analysis latitudes, dlambda that of the longitudes, counted from the pole row jd + eq_boundary_index is the equator, and height and dz describe the levels of the results.", "quantifier": "all accepted grids", "why_tests_cant": "a statement about every grid", "anchors": ["src/falwa/oopinterface.py:QGFieldBase.__init__"]}
{"id": "C133", "title": "LWA read from a QGField is never negative", "statement": "Whatever the data, lwa and lwa_baro read from a completed QGField are non-negative on every row of the user's grid.", "quantifier": "all data, grids inside [-90, 90] degrees, both classes, both modes", "why_tests_cant": "sign for every dataset through interpolation back to the user's grid", "anchors": ["src/falwa/oopinterface.py:QGFieldBase.lwa", "src/falwa/oopinterface.py:QGFieldBase.lwa_baro"]}
{"id": "C134", "title": "Winds and potential temperature read back are those given", "statement": "interpolated_u, interpolated_v and interpolated_theta return the given winds, and T (1000/p)^(R/cp), at every level that is a level of the data; profiles linear in height are reproduced at every level.", "quantifier": "all data and grids", "why_tests_cant": "exactness for every dataset", "anchors": ["src/falwa/oopinterface.py:QGFieldBase.interpolated_u", "src/falwa/oopinterface.py:QGFieldBase.interpolated_v", "src/falwa/oopinterface.py:QGFieldBase.interpolated_theta"]}
{"id": "C135", "title": "The named tuple holds the same arrays as the properties", "statement": "The arrays in the named tuple returned by compute_lwa_and_barotropic_fluxes equal the properties of the same name, rows included.", "quantifier": "all data and grids", "why_tests_cant": "agreement for every grid", "anchors": ["src/falwa/oopinterface.py:QGFieldBase.compute_lwa_and_barotropic_fluxes"]}
{"id": "C136", "title": "Forcing from heating is available on every accepted grid", "statement": "compute_ncforce_from_heating_rate returns, for heating with the shape of the input data, an array that can be passed on as ncforce.", "quantifier": "all accepted grids and heatings", "why_tests_cant": "availability on every grid", "anchors": ["src/falwa/oopinterface.py:QGFieldBase.compute_ncforce_from_heating_rate"]}
{"id": "C137", "title": "The kmax suggested by the error message is the largest accepted", "statement": "If kmax is refused because the data do not reach high enough, the kmax named in the message is accepted and no larger one is. In rounded arithmetic the named kmax is still accepted; in binary64 at most one larger kmax is.", "quantifier": "all pressure grids, dz > 0 and kmax", "why_tests_cant": "an optimum over all kmax", "anchors": ["src/falwa/oopinterface.py:QGFieldBase._check_valid_plev"]}
{"id": "C138", "title": "Axes in the wrong order are rejected", "statement": "Construction succeeds only if the latitudes are ascending, the pressure levels descending and, when declared so, evenly spaced in pseudoheight.", "quantifier": "all latitude and pressure axes", "why_tests_cant": "a statement about every axis", "anchors": ["src/falwa/oopinterface.py:QGFieldBase._check_valid_plev", "src/falwa/oopinterface.py:QGFieldBase._check_and_flip_ylat"]}
{"id": "C139", "title": "ylat_ref_states are the latitudes of the rows of the results", "statement": "ylat_ref_states has as many elements as the results have rows, in ascending order, and consists of all latitudes, or in northern-only mode of exactly those from the equator northward.", "quantifier": "all symmetric accepted grids, both modes", "why_tests_cant": "a statement about every grid", "anchors": ["src/falwa/oopinterface.py:QGFieldBase.ylat_ref_states"]}
{"id": "C140", "title": "The object never modifies the user's arrays", "statement": "The arrays u_field, v_field, t_field and ylat given to the constructor, an ncforce array passed to a method, and any array assigned to a field attribute keep their contents through every later call, property read and assignment; only the user's own writes to that array change it.", "quantifier": "all constructor modes, all sequences of method calls (successful or raising), property reads and attribute assignments, all results of the numerical kernels", "why_tests_cant": "in-place writes through views appear only for particular sequences of calls and grid modes; tests compare results, not the inputs afterwards", "anchors": ["src/falwa/oopinterface.py:QGFieldBase.__init__", "src/falwa/oopinterface.py:QGFieldBase._return_interp_variables", "src/falwa/oopinterface.py:QGFieldBase.interpolate_fields", "src/falwa/data_storage.py:NHemProperty.__set__", "src/falwa/data_storage.py:DerivedQuantityStorage.fortran_to_python"]}
{"id": "C141", "title": "A result array keeps its values when the object computes again", "statement": "An array read from a property of the object, or from a named tuple returned by a method, is not changed by later method calls or assignments.", "quantifier": "all properties, all constructor modes, all histories before and after the read", "why_tests_cant": "the set of possible call sequences after a read is unbounded; tests read results once", "anchors": ["src/falwa/oopinterface.py:QGFieldBase.__init__", "src/falwa/oopinterface.py:QGFieldBase._return_interp_variables", "src/falwa/oopinterface.py:QGFieldBase.interpolate_fields", "src/falwa/data_storage.py:NHemProperty.__set__", "src/falwa/data_storage.py:DerivedQuantityStorage.fortran_to_python"]}
{"id": "C142", "title": "Input arrays may be reused after construction", "statement": "After the constructor has returned, the user may overwrite u_field, v_field, t_field and ylat without changing any result of the object.", "quantifier": "all constructor modes, all histories in which the input arrays are overwritten at any points", "why_tests_cant": "needs a comparison of two unbounded histories with and without the writes", "anchors": ["src/falwa/oopinterface.py:QGFieldBase.__init__", "src/falwa/oopinterface.py:QGFieldBase._return_interp_variables", "src/falwa/oopinterface.py:QGFieldBase.interpolate_fields", "src/falwa/data_storage.py:NHemProperty.__set__", "src/falwa/data_storage.py:DerivedQuantityStorage.fortran_to_python"]}
{"id": "C143", "title": "Editing a returned array does not change the object", "statement": "Overwriting an array obtained from a property or a named tuple changes nothing the object returns later.", "quantifier": "all constructor modes, all histories with writes to returned arrays at any points", "why_tests_cant": "needs a comparison of two unbounded histories with and without the writes", "anchors": ["src/falwa/oopinterface.py:QGFieldBase.__init__", "src/falwa/oopinterface.py:QGFieldBase._return_interp_variables", "src/falwa/oopinterface.py:QGFieldBase.interpolate_fields", "src/falwa/data_storage.py:NHemProperty.__set__", "src/falwa/data_storage.py:DerivedQuantityStorage.fortran_to_python"]}
{"id": "C144", "title": "hemisphere_to_globe gives identical wave activity on both hemispheres", "statement": "If a field object is built from the output of hemisphere_to_globe and analysed without non-conservative forcing, lwa and lwa_baro have the same values at opposite latitudes, as the docstring says.", "quantifier": "all hemispheres from an exact equator, all winds and temperatures, both classes, all parameters", "why_tests_cant": "a test covers a few fields; the claim fails only for fields with a meridional wind at the equator, which synthetic tests rarely have", "anchors": ["src/falwa/xarrayinterface.py:hemisphere_to_globe", "src/falwa/oopinterface.py:QGFieldBase.__init__", "src/falwa/oopinterface.py:QGFieldBase.lwa", "src/falwa/oopinterface.py:QGFieldBase.lwa_baro"]}
{"id": "C145", "title": "The constructor accepts what hemisphere_to_globe returns", "statement": "The globe made from a hemisphere is accepted by the constructor and can be analysed exactly if the hemisphere has a row at latitude 0; with an equator row that is only near 0 (which hemisphere_to_globe accepts) the constructor raises TypeError.", "quantifier": "all hemispheres hemisphere_to_globe accepts, all levels the constructor accepts, both classes", "why_tests_cant": "the two tolerances meet only for latitudes within 1e-4 degrees of 0 but not equal to 0", "anchors": ["src/falwa/xarrayinterface.py:hemisphere_to_globe", "src/falwa/oopinterface.py:QGFieldBase.__init__", "src/falwa/oopinterface.py:QGFieldBase._check_and_flip_ylat", "src/falwa/xarrayinterface.py:_is_equator"]}
{"id": "C146", "title": "QGPV follows from the interpolated fields", "statement": "Read from an analysed object, qgpv at every level but the first and last (where it is 0) is the centred-difference absolute vorticity of interpolated_u and interpolated_v (zonal mean of the next row at the poles) plus the stretching exp(z/H) d/dz[exp(-z/H)(theta - t0)/slope] of interpolated_theta times the zonal-mean vorticity (QGFieldNH18) or the Coriolis parameter (QGFieldNHN22), where t0 and slope are the area-weighted means of the two hemispheres: averaged over both (NH18), or those of the hemisphere of the row, the equator counted as southern (NHN22).", "quantifier": "all arguments accepted on grids with an odd number of balanced latitudes (at least five), both classes, both modes, all wind and temperature data, every level, row and longitude", "why_tests_cant": "composition of interpolation, averaging and two Fortran kernels; tests compare a few recorded numbers", "anchors": ["src/falwa/oopinterface.py:QGFieldBase.interpolate_fields", "src/falwa/oopinterface.py:QGFieldNH18._compute_qgpv", "src/falwa/oopinterface.py:QGFieldNHN22._compute_qgpv", "src/falwa/oopinterface.py:QGFieldBase._compute_static_stability_func", "src/falwa/f90_modules/compute_qgpv.f90", "src/falwa/f90_modules/compute_qgpv_direct_inv.f90"]}
{"id": "C147", "title": "Local wave activity follows from qgpv and qref", "statement": "Read from an analysed object, lwa at a row is the sum over rows nearer the equator of the excess of qgpv over qref plus the sum over rows poleward of the deficit, each with the arc length of the row, QGPV being counted positive towards the pole of the hemisphere; it is 0 at the pole row, within the equatorward boundary and at the two end levels; lwa_baro is its density-weighted vertical mean.", "quantifier": "all arguments accepted on grids with an odd number of balanced latitudes (at least five), both classes, both modes, all wind and temperature data, every level, row and longitude", "why_tests_cant": "holds for every field; hemispheres are flipped and negated in between", "anchors": ["src/falwa/oopinterface.py:QGFieldBase.compute_lwa_and_barotropic_fluxes", "src/falwa/oopinterface.py:QGFieldBase.lwa", "src/falwa/oopinterface.py:QGFieldBase.lwa_baro", "src/falwa/oopinterface.py:QGFieldBase._compute_intermediate_barotropic_flux_terms", "src/falwa/f90_modules/compute_flux_dirinv.f90"]}
{"id": "C148", "title": "Zonal wave-activity flux follows from the fields", "statement": "ua1 is uref times lwa; ua2 and ep1 are the eddy advection and energy terms computed from interpolated_u, interpolated_v, interpolated_theta and the reference states; adv_flux_f1, f2, f3 are their density-weighted vertical means; flux_vector_lambda_baro is their sum; convergence_zonal_advective_flux is minus its centred zonal derivative, except at rows with cos(lat) <= 1e-5, where it is the undivided difference.", "quantifier": "all arguments accepted on grids with an odd number of balanced latitudes (at least five), both classes, both modes, all wind and temperature data, every level, row and longitude", "why_tests_cant": "relations between a dozen outputs for all inputs", "anchors": ["src/falwa/oopinterface.py:QGFieldBase.compute_layerwise_lwa_fluxes", "src/falwa/oopinterface.py:QGFieldBase.compute_lwa_and_barotropic_fluxes", "src/falwa/oopinterface.py:QGFieldBase.adv_flux_f1", "src/falwa/oopinterface.py:QGFieldBase.convergence_zonal_advective_flux", "src/falwa/oopinterface.py:QGFieldBase.flux_vector_lambda_baro", "src/falwa/utilities.py:zonal_convergence"]}
{"id": "C149", "title": "Meridional flux follows from the fields", "statement": "At interior levels and rows between the equatorward boundary and the pole (both excluded), ep2 and ep3 are the eddy momentum flux (u-uref) v cos^2 at the next row to the north and to the south, in both hemispheres; at all rows divergence_eddy_momentum_flux is the vertical mean of ep2-ep3 divided by 2 a dphi cos(lat) and flux_vector_phi_baro is minus the vertical mean of (u-uref) v times cos(lat).", "quantifier": "all arguments accepted on grids with an odd number of balanced latitudes (at least five), both classes, both modes, all wind and temperature data, every level, row and longitude", "why_tests_cant": "north/south bookkeeping (exchange and sign) must hold at every row", "anchors": ["src/falwa/oopinterface.py:QGFieldBase._compute_intermediate_barotropic_flux_terms", "src/falwa/oopinterface.py:QGFieldBase.divergence_eddy_momentum_flux", "src/falwa/oopinterface.py:QGFieldBase.flux_vector_phi_baro", "src/falwa/f90_modules/compute_flux_dirinv.f90"]}
{"id": "C150", "title": "Heat flux, stretching term, barotropic wind and forcing follow from the fields", "statement": "meridional_heat_flux is the low-level heat flux formula of the two lowest levels; stretch_term is minus the Coriolis parameter times exp(z/H) d/dz[exp(-z/H) v (theta-ptref) cos(lat)/stability]; u_baro is the vertical mean of interpolated_u; ncforce_baro is the vertical mean of the displaced integral of the argument ncforce, negated in the southern hemisphere.", "quantifier": "all arguments accepted on grids with an odd number of balanced latitudes (at least five), both classes, both modes, all wind and temperature data, every level, row and longitude", "why_tests_cant": "composition of several routines with sign changes", "anchors": ["src/falwa/oopinterface.py:QGFieldBase.meridional_heat_flux", "src/falwa/oopinterface.py:QGFieldBase._compute_stretch_term", "src/falwa/oopinterface.py:QGFieldBase.u_baro", "src/falwa/oopinterface.py:QGFieldBase.ncforce_baro", "src/falwa/utilities.py:z_derivative_of_prod"]}
{"id": "C151", "title": "A grid with an even number of latitudes behaves as the grid with one more row", "statement": "On a grid with an even number n of latitudes, everything a session over the globe returns is the piecewise linear interpolation, to the latitudes of the input, of what a session returns whose n+1 latitudes are equally spaced from pole to pole and whose winds and temperature are the piecewise linear interpolation of the input; one succeeds exactly when the other does. The formulas C146-C150 therefore determine the outputs on even grids too.", "quantifier": "all arguments with an even number of balanced latitudes (at least four), both classes, all wind and temperature data, any forcing, all twenty-five results", "why_tests_cant": "the interpolation is applied in the constructor and again in every property, in different modules, and the session in between runs on another grid", "anchors": ["src/falwa/oopinterface.py:QGFieldBase.__init__", "src/falwa/oopinterface.py:QGFieldBase._interp_back", "src/falwa/oopinterface.py:QGFieldBase._return_interp_variables"]}
{"id": "C152", "title": "Reference wind and reference temperature are in thermal wind balance", "statement": "On every row poleward of the boundary row whose neighbours are reported, the meridional difference of ptref and the vertical difference of uref returned by a whole session satisfy the discrete thermal wind relation, for both classes and both hemispheres.", "quantifier": "all arguments accepted on grids with an odd number of balanced latitudes (at least five), any wind and temperature data, any results of the spline library, every reported row of both hemispheres and every inner level", "why_tests_cant": "it relates arrays that two solvers return after several flips, interpolations and unit changes, for every data set", "anchors": ["src/falwa/oopinterface.py:QGFieldBase.compute_reference_states", "src/falwa/oopinterface.py:QGFieldBase.uref", "src/falwa/oopinterface.py:QGFieldBase.ptref", "src/falwa/f90_modules/compute_reference_states.f90", "src/falwa/f90_modules/upward_sweep.f90"]}
{"id": "C153", "title": "The reference PV of a session is the area rearrangement of the returned QGPV", "statement": "On every level qref at the pole is the largest QGPV; the area with more QGPV than qref at a row is the area poleward of the row up to the area between contours; qref lies between the smallest and the largest value and grows towards the pole on these rows; it is 0 on rows whose cap is larger than the area left by the first contour.", "quantifier": "all arguments accepted on grids with an odd number of balanced latitudes (at least five), any wind and temperature data, any results of the spline library, every reported row of both hemispheres and every inner level; latitudes from pole to pole", "why_tests_cant": "it relates arrays that two solvers return after several flips, interpolations and unit changes, for every data set", "anchors": ["src/falwa/oopinterface.py:QGFieldBase.qref", "src/falwa/oopinterface.py:QGFieldBase.qgpv"]}
{"id": "C154", "title": "Hemispheric mean of the reference temperature", "statement": "The cos-weighted hemispheric mean of ptref is that of the zonal mean potential temperature (QGFieldNH18), or the northern domain mean of potential temperature (QGFieldNHN22, both hemispheres), at every level.", "quantifier": "all arguments accepted on grids with an odd number of balanced latitudes (at least five), any wind and temperature data, any results of the spline library, every reported row of both hemispheres and every inner level", "why_tests_cant": "it relates arrays that two solvers return after several flips, interpolations and unit changes, for every data set", "anchors": ["src/falwa/oopinterface.py:QGFieldBase.ptref", "src/falwa/oopinterface.py:QGFieldNHN22._compute_reference_states", "src/falwa/oopinterface.py:QGFieldNH18._compute_reference_states"]}
{"id": "C155", "title": "Reference wind at the edges of the grid", "statement": "QGFieldNH18: uref on the equator is the zonal mean wind, 0 on the ground, linearly extrapolated at the pole. QGFieldNHN22: uref and ptref are 0 equatorward of the boundary row, uref on the boundary row is 0 except at the top level where it is -omega a, linearly extrapolated at the pole.", "quantifier": "all arguments accepted on grids with an odd number of balanced latitudes (at least five), any wind and temperature data, any results of the spline library, every reported row of both hemispheres and every inner level", "why_tests_cant": "it relates arrays that two solvers return after several flips, interpolations and unit changes, for every data set", "anchors": ["src/falwa/oopinterface.py:QGFieldBase.uref", "src/falwa/f90_modules/upward_sweep.f90"]}
{"id": "C156", "title": "A QGFieldNH18 session that returns has solved the elliptic problem for its returned qref", "statement": "When compute_lwa_and_barotropic_fluxes returns, uref cos(lat) satisfies the discrete elliptic equation whose right-hand side is the gradient of the returned qref up to the given tolerance, with the boundary values at the equator, the pole, the ground and the top computed from the returned fields. A reference wind read from a refused session is either such a solution, or 0 between equator and pole.", "quantifier": "all arguments accepted on grids with an odd number of balanced latitudes (at least five), any wind and temperature data, any results of the spline library, every reported row of both hemispheres and every inner level; positive physical constants and static stability, 0 <= rjac < 1", "why_tests_cant": "it relates arrays that two solvers return after several flips, interpolations and unit changes, for every data set", "anchors": ["src/falwa/oopinterface.py:QGFieldNH18._compute_reference_states", "src/falwa/oopinterface.py:QGFieldBase.compute_lwa_and_barotropic_fluxes", "src/falwa/f90_modules/compute_reference_states.f90"]}
{"id": "C157", "title": "A QGFieldNHN22 session solves the elliptic problem for its returned qref exactly", "statement": "uref cos(lat) satisfies the discrete elliptic equation whose right-hand side is the gradient of the returned qref at every inner point poleward of the boundary row, with the wind of the circulation of absolute vorticity at the boundary row and thermal wind shear at the top, given an exact matrix inversion.", "quantifier": "all arguments accepted on grids with an odd number of balanced latitudes (at least five), any wind and temperature data, any results of the spline library, every reported row of both hemispheres and every inner level; positive physical constants and static stability, an exact matrix inverse", "why_tests_cant": "it relates arrays that two solvers return after several flips, interpolations and unit changes, for every data set", "anchors": ["src/falwa/oopinterface.py:QGFieldNHN22._compute_reference_states", "src/falwa/f90_modules/matrix_after_inversion.f90", "src/falwa/f90_modules/upward_sweep.f90"]}
{"id": "C158", "title": "Which sessions are refused, and by which call", "statement": "A session is refused by the constructor exactly for levels that are not accepted; in northern mode without the equator by interpolate_fields (with the named tuple) or by compute_reference_states; otherwise QGFieldNHN22 always returns, and QGFieldNH18 returns or raises ValueError in compute_reference_states (raise_error_for_nonconvergence) or in compute_lwa_and_barotropic_fluxes. QGFieldNH18 with maxit <= 2 never returns.", "quantifier": "all usable arguments, both classes, both settings of return_named_tuple and raise_error_for_nonconvergence, any data", "why_tests_cant": "the outcome depends on the convergence of an iteration for all data", "anchors": ["src/falwa/oopinterface.py:QGFieldBase.compute_reference_states", "src/falwa/oopinterface.py:QGFieldBase.compute_lwa_and_barotropic_fluxes", "src/falwa/oopinterface.py:QGFieldNH18._compute_reference_states"]}
{"id": "C159", "title": "compute_lwa_only gives the wave activity of the full session, whatever the wind solver does", "statement": "compute_lwa_only returns whenever the session gets that far, also without convergence; qref, uref, ptref, lwa are those of the full session and lwa_baro up to the factor exp(-h0/H) of the lowest height h0; qref, lwa, lwa_baro, u_baro do not depend on maxit, tol, rjac nor on the solver of the reference wind. Expected: u_baro is that of the full session (false: the top level is left out).", "quantifier": "all usable arguments, both classes, any data, any two settings of the solver", "why_tests_cant": "independence of the outcome of an iteration, for all data", "anchors": ["src/falwa/oopinterface.py:QGFieldBase.compute_lwa_only", "src/falwa/oopinterface.py:QGFieldBase.u_baro", "src/falwa/oopinterface.py:QGFieldBase.lwa_baro"]}
{"id": "C160", "title": "Forcing computed from a heating rate", "statement": "compute_ncforce_from_heating_rate returns f exp(z/H) d/dz(exp(-z/H) heating/stability) with the heating interpolated linearly in height, the static stability of the row's own hemisphere (mean of both on the equator), centred differences, one-sided at the ends.", "quantifier": "all usable arguments with the equator among the latitudes, both classes, any heating, every level, row and longitude", "why_tests_cant": "for every data set and grid", "anchors": ["src/falwa/oopinterface.py:QGFieldBase.compute_ncforce_from_heating_rate", "src/falwa/utilities.py:z_derivative_of_prod"]}
{"id": "C161", "title": "A NaN or infinite value spoils exactly its own longitude of the local wave activity", "statement": "basis.lwa in double precision: if vort has a NaN at one grid point, both components and the total of the returned local wave activity are NaN in every row of that longitude but the last; an infinite value makes the total NaN there; a NaN in ncforce makes the forcing term NaN there. All other longitudes are exactly what they would be with any other value at that point. One expects the forcing term to become NaN too where the vorticity is missing; it does not: the forcing at that point is left out.", "quantifier": "all numbers of latitudes, all double precision arrays vort, q_part, dmu, ncforce, all positions of the special value", "why_tests_cant": "NaN propagation must be known for every position and every other value, including infinities produced by zero times infinity; a test tries a few.", "anchors": ["src/falwa/basis.py:lwa"]}
{"id": "C162", "title": "Values hidden under a mask", "statement": "QGField objects accept masked arrays for the wind and temperature fields. One expects that values hidden by the mask do not influence the results. They do: the constructor takes the underlying data, so the mask is ignored, and the hidden values come back in interpolated_u wherever a level of the results is a level of the data.", "quantifier": "all classes, all accepted arguments with the equator among the latitudes, all masks and hidden values", "why_tests_cant": "A test fixes the fill values under the mask; the statement compares all pairs of data that differ only under the mask.", "anchors": ["src/falwa/oopinterface.py:QGFieldBase._convert_masked_data", "src/falwa/oopinterface.py:QGFieldBase.__init__", "src/falwa/oopinterface.py:QGFieldBase.interpolated_u"]}
{"id": "C163", "title": "The computed wave activity is not negative in floating point", "statement": "With every operation rounded by any monotone rounding that keeps 0, both parts of the wave activity computed by the Fortran kernels are nonnegative as long as no computed latitude of the hemisphere exceeds 90 degrees. In single precision it does: on all grids with 2^s intervals and the usual grids of 2.5 to 0.25 degrees (and on every grid for the southern hemisphere of QGFieldNHN22) the pole is computed at 13176795/2^23 > pi/2, and a column whose PV anomaly is at the pole only gets a negative activity; compute_lwa_only then returns a negative lwa_baro.", "quantifier": "all rounding functions; all grids of the usual sizes, all radii >= 1, all PV fields with the anomaly at the pole, all rows and levels analysed", "why_tests_cant": "The sign depends on the rounding of pi divided by the number of intervals for every grid size, and the negative value is tiny; tests compare with tolerances.", "anchors": ["src/falwa/f90_modules/compute_flux_dirinv.f90:compute_flux_dirinv", "src/falwa/f90_modules/compute_lwa_only_nhn22.f90:compute_lwa_only_nhn22", "src/falwa/oopinterface.py:QGFieldBase.compute_lwa_only"]}
{"id": "C164", "title": "The PV bins of the reference state solver stay in bounds in single precision", "statement": "compute_reference_states of QGFieldNH18 sorts every grid point of a level into one of npart bins. Computed in single precision, the index of the bin is between 1 and npart for every grid point, for up to 2^22 bins, whenever the PV values at the level differ by at least 2^-100.", "quantifier": "all grids, all PV fields, all levels, all npart from 2 to 2^22", "why_tests_cant": "Whether rounding pushes the smallest value past the last bin depends on the bits of maximum, minimum and npart; tests see a few combinations.", "anchors": ["src/falwa/f90_modules/compute_reference_states.f90:compute_reference_states"]}
{"id": "C165", "title": "basis.lwa is accurate in floating point", "statement": "If every arithmetic operation has a relative error of at most u (double precision: 2^-53, without underflow and overflow), each component of the local wave activity returned by basis.lwa equals the exact integral up to nlat + 3 such relative errors, and the total up to nlat + 4, so that the relative error of the total is at most 2 (nlat + 4) u: there is no cancellation, whatever the data. The error of the forcing term is at most ((1+u)^(nlat+3) - 1) times the integral of the size of the forcing over the displaced air.", "quantifier": "all roundings with relative error u, all numbers of latitudes, all fields, all reference profiles, all nonnegative weights dmu, all points", "why_tests_cant": "Rounding errors depend on every bit of the data; tests compare a few fields with a tolerance and cannot exclude cancellation for others.", "anchors": ["src/falwa/basis.py:lwa"]}
{"id": "C166", "title": "Interpolation from hybrid levels to pressure levels", "statement": "The preprocessing script turns a field on hybrid model levels into a field on pressure levels. Every value of the result is a number. Where a pressure level lies between the middle of the highest and of the lowest layer of the column, the value is the linear interpolation between two neighbouring layers, so that fields linear in pressure are reproduced exactly; elsewhere it is filled from the neighbourhood. Values at one time and level depend only on the data at this time and the pressure of this level. The topography saved along with it is 1 above the ground and NaN below, and the function can be used from other programs.", "quantifier": "all numbers of times, layers, latitudes, longitudes and new levels, all hybrid coefficients and surface pressures with increasing interface pressures, all fields, every gridfill.fill that keeps unmasked points and returns numbers", "why_tests_cant": "Surface pressure differs from column to column, so the set of layers below a pressure level is different at every point; tests cover a few columns.", "anchors": ["scripts/pre_process_data_in_hybrid_coordinates/vertical_interpolation_hybrid_to_pressure_poisson_filled_below_topo.py:vertical_interpolation_to_pressure", "scripts/pre_process_data_in_hybrid_coordinates/vertical_interpolation_hybrid_to_pressure_poisson_filled_below_topo.py:gridfill_all_levels_each_time", "src/falwa/preprocessing.py:gridfill_each_level"]}
{"id": "C167", "title": "Driver programs keep values at their coordinates", "statement": "The driver programs under scripts/ bring latitudes into ascending and pressure into descending order before they create a QGField object. Whatever the order in the file, the object has at each pressure and latitude the wind and temperature which the file has there.", "quantifier": "all files with strictly monotone axes of any size and orientation, all fields, all times", "why_tests_cant": "Each program is run by its author on files of one orientation; the mistake shows only for the others.", "anchors": ["scripts/mdtf_predigest_data/predigest_data.py:__main__", "scripts/nhn_grl2022/sample_run_script.py", "scripts/lubis_et_al_2025/cal_lwa_budget_NHN22.py", "scripts/lubis_et_al_2025/cal_ncforce_loop.py"]}
{"id": "C168", "title": "The predigest program writes the results of every time", "statement": "predigest_data.py writes, for every six hours of the month named on the command line, the barotropic wave activity and wind, the zonal means of wave activity and wind, and the reference wind of the atmosphere at that time; it processes every time of the input and accepts either orientation of the levels.", "quantifier": "all files, years and months, all accepted grids", "why_tests_cant": "The number of time steps comes from the calendar, not from the file, so the result depends on month, leap year and length of file.", "anchors": ["scripts/mdtf_predigest_data/predigest_data.py:__main__"]}
{"id": "C169", "title": "The drivers for QGFieldNHN22 complete and write what the object computed", "statement": "The sample program of Neal et al. (2022) and the budget and forcing programs of Lubis et al. (2025) complete for every accepted grid, and the variables written are the properties of the object.", "quantifier": "all files, all accepted grids, all times", "why_tests_cant": "The programs need large reanalysis files and are not part of the test suite; argument lists and numbers of rows depend on the grid.", "anchors": ["scripts/nhn_grl2022/sample_run_script.py", "scripts/lubis_et_al_2025/cal_lwa_budget_NHN22.py", "scripts/lubis_et_al_2025/cal_ncforce_loop.py", "src/falwa/oopinterface.py:_compute_lwa_flux_dirinv"]}
{"id": "C170", "title": "Comparison plots show both fields on one scale", "statement": "compare_two_fields and compare_two_fields_on_map draw the first field, the second field and the size of their difference. The first two panels have the same 31 equidistant levels spanning the values of both fields, so that no value is left blank; the third shows the differences on a scale set by diff_factor, automatic for None. They succeed exactly when the fields are not both constant and equal and diff_factor is not negative.", "quantifier": "all fields of all sizes, all factors", "why_tests_cant": "Plots are compared by eye; degenerate fields and factors are not tried.", "anchors": ["src/falwa/plot_utils.py:compare_two_fields", "src/falwa/plot_utils.py:compare_two_fields_on_map"]}
{"id": "C171", "title": "Extraction of time slices", "statement": "extract_one_timeslice writes a file with one time per index given, in this order, negative indices counting from the end; variables with the dimension time are sampled at these times and all others are unchanged. It fails exactly when there is no dimension time or an index is out of range. Extracting twice is extracting once with the indices of the indices.", "quantifier": "all datasets, all lists of indices", "why_tests_cant": "Lists of indices are unbounded, with repetitions and negative entries.", "anchors": ["src/falwa/netcdf_utils.py:extract_one_timeslice"]}
{"id": "C172", "title": "Every dataset variable carries the axes of its kind", "statement": "Reading a variable of a QGDataset succeeds whenever every field answers with an array of the shape of that kind of variable. The result has the extra dimensions of the input followed by the axes of the kind: (height, ylat, xlon) for the interpolated fields, height for the static stability, (height, ylat of the results) for the reference states, (ylat of the results, xlon) for the column averages, (height, ylat of the results, xlon) for wave activity and layerwise fluxes. Its values are those of the fields. An array of another size is refused, never relabelled.", "quantifier": "every dataset, every number of extra dimensions and fields, every registered variable, every field values", "why_tests_cant": "Tests read a few variables of one dataset with one extra dimension.", "anchors": ["src/falwa/xarrayinterface.py:_MetadataServiceProvider.as_dataarray", "src/falwa/xarrayinterface.py:_DataArrayCollector"]}
{"id": "C173", "title": "Missing values are visible in wave activity and fluxes", "statement": "If a PV value or a reference PV value handed to the wave-activity kernels is NaN, the wave activity of the rows it takes part in is not an ordinary number; a NaN wind, temperature or forcing likewise shows in the flux terms computed from it.", "quantifier": "every array of PV, winds, temperature, forcing and reference PV, every position of the missing value, both hemispheres, every IEEE binary format and every implementation of the elementary functions", "why_tests_cant": "A test with one NaN at one point covers one side of one contour; whether the NaN is dropped depends on every comparison in the kernel.", "anchors": ["src/falwa/f90_modules/compute_flux_dirinv.f90:compute_flux_dirinv_nshem", "src/falwa/f90_modules/compute_lwa_only_nhn22.f90:compute_lwa_only_nhn22"]}
{"id": "C174", "title": "Every PV level can be sorted into the bins of the area analysis", "statement": "For every PV field given to compute_reference_states the area analysis counts each grid point in one of its bins, also where the PV of a level is uniform (a planet that does not rotate, at rest) or a value is missing.", "quantifier": "every PV field with a uniform level or a missing value, every number of bins, every IEEE format and every conversion of NaN to an integer", "why_tests_cant": "Uniform levels do not occur in sample data; the result of converting NaN depends on the processor.", "anchors": ["src/falwa/f90_modules/compute_reference_states.f90:compute_reference_states", "src/falwa/f90_modules/compute_qref_and_fawa_first.f90:compute_qref_and_fawa_first"]}
{"id": "C175", "title": "The wave activity kernels are accurate in floating point", "statement": "In arithmetic with relative rounding error u, each part of the wave activity that compute_lwa_and_barotropic_fluxes and compute_lwa_only return differs from the exact integral by at most ((1+u)^(nlat+11) - 1) times pi*a*dphi*(PV displaced across the contour), with nlat the rows of the hemisphere; the barotropic wave activity by ((1+u)^(nlat+kmax+16) - 1) times the corresponding weighted sum over levels.", "quantifier": "every relative rounding with exact small whole numbers (every precision), every PV field and reference PV, every grid size, every row and level", "why_tests_cant": "Rounding errors depend on the data and on the precision; a test compares one field with a tolerance chosen by hand.", "anchors": ["src/falwa/f90_modules/compute_flux_dirinv.f90:compute_flux_dirinv_nshem", "src/falwa/f90_modules/compute_lwa_only_nhn22.f90:compute_lwa_only_nhn22"]}
{"id": "C176", "title": "Repeating a call changes nothing", "statement": "Calling interpolate_fields, compute_reference_states, compute_lwa_only, compute_lwa_and_barotropic_fluxes or the layerwise flux method a second time with the same argument returns arrays with the same contents as the first time, and afterwards every property and attribute shows the same content as after one call.", "quantifier": "every history of calls, reads, assignments and overwrites before, every grid and mode, every function the kernels may compute, every outcome of the solver, every property", "why_tests_cant": "Holds only if no computation reads an array it or a later step of the same call overwrites, in every reachable aliasing of the arrays.", "anchors": ["src/falwa/oopinterface.py:QGFieldBase.interpolate_fields", "src/falwa/oopinterface.py:QGFieldBase.compute_reference_states", "src/falwa/oopinterface.py:QGFieldBase.compute_lwa_and_barotropic_fluxes", "src/falwa/data_storage.py"]}
{"id": "C177", "title": "The zonal total of local wave activity is the finite-amplitude wave activity", "statement": "Summed around a latitude circle, the wave activity returned by basis.lwa, and the lwa of a session, equals the circulation of the region whose (potential) vorticity exceeds the reference value minus the circulation poleward of the row, minus the reference value times the difference of the two areas. Changing the reference value lowers this total by at most the area difference times the change, so it is least for the value whose contour encloses the area poleward of the row.", "quantifier": "every grid, field, reference state, non-negative row weights, row, level and hemisphere; every accepted session on an odd number of latitudes", "why_tests_cant": "An identity between a sum of clipped integrals and a rearrangement of the whole field, for every field; the extremal statement compares with every other reference value.", "anchors": ["src/falwa/basis.py:lwa", "src/falwa/oopinterface.py:QGFieldBase.compute_lwa_and_barotropic_fluxes", "src/falwa/f90_modules/compute_flux_dirinv.f90", "src/falwa/f90_modules/compute_lwa_only_nhn22.f90"]}
{"id": "C178", "title": "Which arguments influence which results", "statement": "The non-conservative forcing given to the flux computation changes nothing but its own integral. maxit, tol and rjac change nothing but the reference wind, the reference temperature and the fluxes, and QGFieldNHN22 ignores them. npart changes neither the interpolated fields, the static stabilities, QGPV nor the barotropic wind, and QGFieldNHN22 ignores it. With data_on_evenly_spaced_pseudoheight_grid, kmax and dz are ignored. Once the reference wind has converged, a larger maxit changes no result.", "quantifier": "every library, class, set of constructor arguments (accepted or refused: the same exception is raised), forcing, and value of the changed argument", "why_tests_cant": "Absence of influence must hold for every pair of inputs; a test can only compare a few pairs.", "anchors": ["src/falwa/oopinterface.py:QGFieldBase.__init__", "src/falwa/oopinterface.py:QGFieldNH18", "src/falwa/oopinterface.py:QGFieldNHN22", "src/falwa/f90_modules/compute_reference_states.f90"]}
{"id": "C179", "title": "Symmetries of the state are symmetries of the results", "statement": "If the winds, the temperature and the forcing repeat after s longitudes, so does every field, wave activity and flux read from the object. If they do not depend on longitude, neither does any result. If a global state is symmetric about the equator (u and T even, v and the forcing odd), the session of QGFieldNH18 returns, its results are symmetric in the same sense (away from the equator where a division by the Coriolis parameter is smoothed), and both hemispheres report the same convergence.", "quantifier": "every library that is a function of its data, class (NH18 for the mirror symmetry), usable set of constructor arguments, period s, and symmetric state", "why_tests_cant": "Symmetric states form infinite families; a test can only try a few of them.", "anchors": ["src/falwa/oopinterface.py:QGFieldBase", "src/falwa/oopinterface.py:QGFieldNH18", "src/falwa/f90_modules/compute_qgpv.f90", "src/falwa/f90_modules/compute_lwa_and_barotropic_fluxes.f90"]}
{"id": "C180", "title": "Reach of one grid value in potential vorticity", "statement": "Changing u, v or potential temperature at one grid point, for given reference profiles, changes QGPV of QGFieldNHN22 only at the points of the difference stencil (and on a pole row next to it), and QGPV of QGFieldNH18 only on the rows of latitude concerned and on the two neighbouring levels. One missing value (NaN) makes QGPV missing on the whole of that region, so that in QGFieldNH18 a single missing wind removes whole circles of latitude.", "quantifier": "every arithmetic (exact, rounded, IEEE with NaN and any elementary functions), grid, profile and state, and every pair of points", "why_tests_cant": "The region without influence must be untouched for every value; tests can only sample.", "anchors": ["src/falwa/f90_modules/compute_qgpv.f90", "src/falwa/f90_modules/compute_qgpv_direct_inv.f90"]}
{"id": "C181", "title": "Winds act level by level", "statement": "With the same temperatures, two sessions whose winds agree on a level of the results have the same QGPV, the same reference PV and the same wave activity on that level. In terms of the data, only the winds on the two data levels around a level (the level itself for data on the levels of the results) enter these three quantities.", "quantifier": "every library, class, set of arguments with an odd number of latitudes, pair of wind fields, forcing and level", "why_tests_cant": "Independence of other levels must hold for every pair of inputs.", "anchors": ["src/falwa/oopinterface.py:QGFieldBase.interpolate_fields", "src/falwa/oopinterface.py:QGFieldBase.compute_reference_states", "src/falwa/f90_modules/compute_reference_states.f90", "src/falwa/f90_modules/compute_qref_and_fawa_first.f90"]}
{"id": "C182", "title": "Independence of the units of time and length", "statement": "Describing the same atmosphere and planet with another unit of time (winds, rotation rate, gas constant, heat capacity and forcing converted) makes every session end in the same way - the same exception from the same call, or the same results converted to the new unit. The same holds for another unit of length (heights, spacing, scale height and radius converted too), provided the fitted splines do not depend on the unit of length. The solver takes the same number of iterations in all units.", "quantifier": "every positive conversion factor, library, class, set of arguments (valid or not), forcing and way of calling; no restriction on sizes or data. For another unit of length the convergence of the zonal flux is covered on grids that include the equator, in rows whose cosine of latitude exceeds 1e-5", "why_tests_cant": "A missing or extra factor shows only for particular inputs and units; a test fixes one set of units.", "anchors": ["src/falwa/oopinterface.py:QGFieldBase", "src/falwa/utilities.py:zonal_convergence", "src/falwa/f90_modules"]}
{"id": "C183", "title": "Missing values never pass the iterative solver unnoticed", "statement": "If the static stability of some level, or QGPV anywhere in the hemisphere on a level the solver uses, is missing (NaN), the reference-state solver of QGFieldNH18 does not report convergence (for QGPV: unless it stops at the very first test, which looks at half of the points), so that compute_reference_states raises ValueError or refuses the fluxes. A missing potential temperature makes its whole level of the reference temperature missing, and a missing wind on the equator makes the reference wind there missing. A missing wind elsewhere is not noticed by the solver.", "quantifier": "IEEE arithmetic of every format with every choice of elementary functions, conversions and uninitialised memory; every grid with more than one interior point; every state, level and point", "why_tests_cant": "NaN spreads point by point over the sweeps; that it reaches the stopping test in time must hold for every position, colour and number of iterations.", "anchors": ["src/falwa/f90_modules/compute_reference_states.f90", "src/falwa/oopinterface.py:QGFieldNH18._compute_reference_states"]}
{"id": "C184", "title": "QGFieldNH18 converges if it is given enough iterations", "statement": "On latitudes from pole to pole, with positive constants, a static stability that increases potential temperature upwards at every level, a spectral radius rjac in [0,1) and a positive tolerance, there is a number of iterations from which on QGFieldNH18 never reports non-convergence, provided that in each analysed hemisphere the reference QGPV divided by the Coriolis parameter is not constant over the rows off the equator at all inner levels. If it is constant, or the tolerance is not positive, then no maxit is enough: every session raises or refuses its fluxes.", "quantifier": "every library of splines, every dataset and grid of the odd kind, every maxit, tolerance and rjac in the stated range, over the real numbers", "why_tests_cant": "Whether an iteration ends is a statement about unboundedly many sweeps over arbitrarily large grids; a test sees one dataset and one maxit.", "anchors": ["src/falwa/f90_modules/compute_reference_states.f90", "src/falwa/oopinterface.py:QGFieldNH18._compute_reference_states", "src/falwa/oopinterface.py:QGFieldBase.compute_reference_states"]}
{"id": "C185", "title": "The vertical average of the stretching term is the low-level heat flux", "statement": "As the documentation of QGField.stretch_term says, the density-weighted vertical average of stretch_term over the column is the low-level meridional heat flux reported as meridional_heat_flux.", "quantifier": "every library of splines, class, dataset, grid of the odd kind, hemisphere, analysed row off the equator and longitude", "why_tests_cant": "The claim compares a three-dimensional and a two-dimensional output of two different code paths (python derivative, Fortran boundary term) for every dataset.", "anchors": ["src/falwa/oopinterface.py:QGFieldBase.stretch_term", "src/falwa/oopinterface.py:QGFieldBase._compute_stretch_term", "src/falwa/f90_modules/compute_flux_dirinv.f90"]}
{"id": "C186", "title": "Eddy momentum is only redistributed in latitude", "statement": "Along every meridian, the divergence of the eddy momentum flux summed over any range of analysed rows with the weight a*dphi*cos(latitude) equals the difference of the vertically averaged momentum fluxes at the two ends of the range (each the mean of two neighbouring rows): nothing is created between them.", "quantifier": "every library of splines, class, dataset, grid of the odd kind, hemisphere, longitude and range of analysed rows", "why_tests_cant": "A statement about sums of unbounded length over two output arrays with shifted rows; a test would check one range of one dataset within rounding.", "anchors": ["src/falwa/oopinterface.py:QGFieldBase.divergence_eddy_momentum_flux", "src/falwa/f90_modules/compute_flux_dirinv.f90"]}
{"id": "C187", "title": "Wave activity of a session is bounded by the spread of PV", "statement": "The local wave activity read after a session is never negative and at no point exceeds (largest minus smallest QGPV of the level, counting 0) times the planet radius times (1 + one latitude step); the barotropic wave activity obeys the same bound with the largest spread of any level. On grids with an even number of latitudes the local wave activity, interpolated back, obeys the bound of the grid with one more row.", "quantifier": "every library of splines, class, dataset, grid of the odd kind, hemisphere, row, longitude and level", "why_tests_cant": "A bound over all datasets: no test set can show that no PV field produces a larger value, nor that the reference PV never leaves the range.", "anchors": ["src/falwa/oopinterface.py:QGFieldBase.lwa", "src/falwa/oopinterface.py:QGFieldBase.lwa_baro", "src/falwa/f90_modules/compute_flux_dirinv.f90"]}
{"id": "C188", "title": "Wave activity vanishes exactly where nothing is displaced", "statement": "At an analysed point the wave activity read after a session is 0 if and only if no PV equatorward of the row on that meridian exceeds the reference PV of the row and no PV on or poleward of it (short of the pole) falls below it; the barotropic wave activity is 0 if and only if that of every level is.", "quantifier": "every library of splines, class, dataset, grid of the odd kind, hemisphere, analysed row, longitude and level", "why_tests_cant": "An equivalence over all datasets; the converse direction excludes cancellations that a test cannot enumerate.", "anchors": ["src/falwa/oopinterface.py:QGFieldBase.lwa", "src/falwa/oopinterface.py:QGFieldBase.lwa_baro"]}
{"id": "C189", "title": "Wave activity changes at most as much as the PV", "statement": "Take two sessions of the same class on the same grid (any two datasets, any solver settings). If on a meridian the QGPV of the two differs by at most e and the reference PV of a row by at most e', the wave activities at that point differ by at most (e + e') times the planet radius times (1 + one latitude step), at every level and in the vertical average.", "quantifier": "every pair of libraries of splines and of datasets, class, grid of the odd kind, hemisphere, row, longitude and level", "why_tests_cant": "A modulus of continuity over all pairs of inputs; tests compare finitely many pairs.", "anchors": ["src/falwa/oopinterface.py:QGFieldBase.lwa", "src/falwa/oopinterface.py:QGFieldBase.lwa_baro", "src/falwa/f90_modules/compute_flux_dirinv.f90"]}
{"id": "C190", "title": "A dataset is analysed field by field", "statement": "Take a QGDataset built from three arrays with any extra dimensions (times, members, ...) and any monotonic order of pressures and latitudes, on which interpolate_fields, compute_reference_states and compute_lwa_and_barotropic_fluxes (with any forcing) were called. Every variable it returns, at every index of the extra dimensions, holds exactly what a QGField constructed from that slice alone (latitudes ascending, pressures descending, the part of the forcing with the same labels) returns after the same calls. The values at one index depend on nothing but the three fields there: another dataset with other extra dimensions holding the same fields at some index has the same values at that index. If the session with every slice alone succeeds, so does the dataset, and every variable can be read, labelled by the extra dimensions followed by heights, latitudes and longitudes of the results.", "quantifier": "every triple of arrays, set of extra dimensions, order of the labels, class, settings, forcing, variable and index", "why_tests_cant": "Quantifies over all datasets of any number of dimensions together with the whole computation of the fields; leakage between slices or a wrong slice order shows only for some shapes.", "anchors": ["src/falwa/xarrayinterface.py:QGDataset", "src/falwa/oopinterface.py:QGFieldBase"]}
{"id": "C191", "title": "Wave activity of a dataset is not negative", "statement": "In a QGDataset with latitudes within 90 degrees, positive dz and radius, every element of lwa_baro and lwa is at least zero.", "quantifier": "every dataset, class, forcing and index of every dimension", "why_tests_cant": "An inequality over all elements of all datasets.", "anchors": ["src/falwa/xarrayinterface.py:QGDataset.lwa_baro", "src/falwa/xarrayinterface.py:QGDataset.lwa"]}
{"id": "C192", "title": "The Fortran routines refer to elements of their arrays only", "statement": "The compiled routines behind interpolate_fields, compute_reference_states and compute_lwa_only (all but the flux kernel, for which see C47) are built without bounds checking. With the sizes any accepted QGField object passes, every array element they read or write lies inside the declared array, whatever the data, provided that for QGFieldNHN22 at least two rows lie between the equatorward boundary and the pole and that no inner level of the PV (and of the vorticity) is uniform. Both conditions are needed: with a boundary next to the pole, which the class accepts, elements outside the arrays are used, and a cell whose bin lies outside the arrays is written to outside them. In single precision, which the routines use, the second condition becomes that the values of an inner level differ by at least 2^-100 (with at most 2^22 bins).", "quantifier": "every accepted object, class, boundary and field", "why_tests_cant": "Quantifies over all sizes and all fields; an access outside an array need not change any observed value.", "anchors": ["src/falwa/f90_modules/compute_reference_states.f90", "src/falwa/f90_modules/compute_qref_and_fawa_first.f90", "src/falwa/f90_modules/upward_sweep.f90", "src/falwa/f90_modules/matrix_b4_inversion.f90", "src/falwa/f90_modules/matrix_after_inversion.f90", "src/falwa/f90_modules/compute_qgpv.f90", "src/falwa/f90_modules/compute_qgpv_direct_inv.f90", "src/falwa/f90_modules/compute_lwa_only_nhn22.f90"]}
{"id": "C193", "title": "The direct inversion gets as many heights as there are levels", "statement": "compute_reference_states of QGFieldNHN22 passes heights np.arange(0, kmax*dz, dz) together with arrays of kmax levels to a compiled routine that refuses arrays of different sizes. Whatever kmax and dz are, these should be the kmax heights of the levels, so that the call is accepted. In exact arithmetic this holds. In binary64 it fails: with kmax=97 and dz=170.1 there are 98 heights and the computation stops with a ValueError. There is never more than one height too many and none is missing; whenever kmax*dz is a binary64 number, in particular for spacings of a whole number of metres, the heights are exactly those of the levels.", "quantifier": "every spacing dz and number of levels", "why_tests_cant": "Depends on the rounding of a product and a quotient for every spacing and number of levels; the default spacing of the tests is safe.", "anchors": ["src/falwa/oopinterface.py:QGFieldNHN22._compute_reference_states_nhn22_hemispheric_wrapper", "src/falwa/f90_modules/matrix_b4_inversion.f90"]}
{"id": "C194", "title": "NaN is reported only when the data lead to it", "statement": "compute_reference_states of QGFieldNHN22 prints a message when an array of its solver contains NaN. Without missing values in the data none should be printed. This fails: the array of finite-amplitude wave activity that is checked holds uninitialised memory on the lowest and the highest level and in the row of the pole, so that for every object and every field there are contents of the memory with which NaN is reported. All its other elements do not depend on the memory where the area of their row is bracketed by contours.", "quantifier": "every size, PV field, floating-point format and content of uninitialised memory", "why_tests_cant": "The outcome depends on what the memory held before the call, which a test does not control.", "anchors": ["src/falwa/oopinterface.py:QGFieldBase._check_nan", "src/falwa/oopinterface.py:QGFieldNHN22._compute_reference_states_nhn22_hemispheric_wrapper", "src/falwa/f90_modules/compute_qref_and_fawa_first.f90"]}
{"id": "C195", "title": "Independence of the unit of temperature", "statement": "Describing the same atmosphere with temperatures on another absolute scale (temperatures, gas constant and heat capacity converted, alone or together with the units of time and length) makes every session end in the same way: the same exception from the same call, or the same results converted - potential temperatures, reference temperature and static stability multiplied by the factor, winds, potential vorticity, wave activity and all fluxes unchanged. The only requirement is that the spline fitted to the mean temperatures scales with them.", "quantifier": "every positive conversion factor, class, set of arguments (valid or not), forcing and way of calling, and every library whose splines scale; no restriction on sizes or data", "why_tests_cant": "A factor that should cancel (gas constant against temperature difference, static stability against temperature anomaly) shows only when units differ; a test fixes one set of units.", "anchors": ["src/falwa/oopinterface.py:QGFieldBase", "src/falwa/oopinterface.py:_compute_static_stability_func", "src/falwa/f90_modules"]}
{"id": "C196", "title": "Only differences of potential temperature matter", "statement": "Adding a constant to the potential temperature of every grid point (the temperatures changed accordingly at each level) leaves the potential vorticity at every grid point, the static stability, its reference state Qref, the local wave activity, the barotropic wind and the mean forcing exactly as they were; so it does with the reference wind Uref, the fluxes F1, F2 and F3, the heat flux at the bottom, the momentum flux divergence, the convergence of the zonal flux, the flux vector and the layerwise fluxes at every grid point. The stored potential temperature grows by the constant, and without an equatorial boundary the reference potential temperature does too. A session fails with the same exception in both cases, or in neither.", "quantifier": "every constant, both classes, both settings of northern_hemisphere_results_only, all data, forcings and sizes, on latitudes symmetric about the equator and every library whose fitted curve moves with the data (least squares splines, smoothed or not)", "why_tests_cant": "A missing or doubled reference temperature cancels in tests with one base temperature; the claim ranges over all constants and data.", "anchors": ["src/falwa/oopinterface.py:_compute_static_stability_func", "src/falwa/oopinterface.py:interpolate_fields", "src/falwa/f90_modules/compute_qgpv.f90", "src/falwa/f90_modules/compute_qgpv_direct_inv.f90"]}
