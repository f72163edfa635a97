# Formal model of csyhuang/hn2016_falwa in Rocq — design

The code in `/repo` is read as text and re-expressed, function by function, as Gallina
definitions under `rocq/theories/`.  Theorems are about those definitions.  Each definition
carries the `/repo` file and line range it models and says where it simplifies.
`properties.jsonl` lists the properties in English, `MANIFEST.json` the theorems per property,
`ASSUMPTIONS.md` what `Print Assumptions` reports for each theorem, `seeded/LOG.jsonl` the wrong
programs tried against the theorems.

## 1. Conventions of the model

* **Numbers.**  Model functions are generic over a record of operations `Num A`
  (`Base.v`): arithmetic, comparison, integer conversion, `sin cos exp asin pi`.
  - instance on Coq's `R`: used for most property theorems (exact arithmetic);
  - instance on `R` with every operation followed by a rounding function that is monotone and
    maps 0 to 0 (sign properties then also cover IEEE arithmetic without overflow/NaN);
  - instance on binary64 through `Coq.Floats.SpecFloat` (`Grid.v`), where the finding is about rounding itself;
  - instance on `Q`: used to *run* the model (`vm_compute`) in examples.
  NaN, infinities and overflow are outside the model, except where the property is about them (`Misc.v`, C161, C173, C174, C180, C183).
* **Arrays.**  Numeric kernels: index function plus explicit sizes (0-based for Python, 1-based
  `nat` for Fortran).  Code whose subject is slicing, shapes or storage: lists, with numpy's
  slice rules written out.  Out-of-bounds Fortran accesses: flat column-major memory (`Fortran.v`).
* **Uninitialised memory** (`np.empty`, Fortran locals) is an argument called `garbage` or `g_…`; a result is
  determined when it does not depend on that argument.
* **Loops** are folds in the order of the source; closed forms are proved, not assumed.
* **Errors** are values (`Ok x | Err exception`); the type differs per area and follows the exceptions of the code.
* **External code** (numpy, scipy, xarray, f2py, LAPACK, gridfill).  Modelled where the semantics is short;
  otherwise a parameter of the theorem.  The list is in section 5.

## 2. File layout

`<Area>.v` model; `<Area>Spec.v` small independent specification; `<Area>Proofs*.v` lemmas;
`Properties<Area>.v` property theorems only, with `Print Assumptions` below and a
non-vacuity `Example` (`…_case`) next to them.

| Files | Code in `/repo/src/falwa` |
|---|---|
| `Base`, `BaseFacts`, `Spec`, `SpecFacts`, `LinAlg` | none: arithmetic interface, sums, linear algebra over `R` |
| `Basis`, `LwaSpec`, `LwaProofs`, `PropertiesLwa`, `EqvlatSpec`, `EqvlatProofs*`, `PropertiesEqvlat` | `basis.py` |
| `Barotropic*`, `PropertiesBarotropic` | `barotropic_field.py` |
| `Utilities*`, `UtilSpec`, `PropertiesUtilities` | `utilities.py` |
| `Storage*`, `PropertiesStorage` | `data_storage.py` |
| `Grid*`, `PropertiesGrid` | `oopinterface.py`: constructor, checks, vertical average, interpolation back |
| `Alias*`, `PropertiesAlias` | `oopinterface.py`, `data_storage.py`: which arrays are shared, rebound, copied or written in place |
| `Globe*`, `PropertiesGlobe` | composition of `xarrayinterface.py:hemisphere_to_globe` with the object model |
| `QGState*`, `PropertiesState` | `oopinterface.py`: call protocol, flags, which data each result is computed from |
| `Fortran`, `Flux*`, `PropertiesFlux` | `compute_flux_dirinv.f90`, `compute_lwa_only_nhn22.f90` |
| `Qgpv*`, `PropertiesQgpv` | `compute_qgpv.f90`, `compute_qgpv_direct_inv.f90` |
| `Pipeline*`, `PropertiesPipeline` | `oopinterface.py`: how kernel results of the two hemispheres are combined |
| `RefStates*`, `PropertiesRefStates` | `compute_reference_states.f90` and its use by `QGFieldNH18` |
| `DirInv*`, `PropertiesDirInv` | `compute_qref_and_fawa_first.f90`, `matrix_b4_inversion.f90`, `matrix_after_inversion.f90`, `upward_sweep.f90` and their use by `QGFieldNHN22` |
| `Mirror*`, `PropertiesMirror` | the whole pipeline, for a state and its mirror image |
| `Xarray*`, `PropertiesXarray`, `PropertiesXarray2` | `xarrayinterface.py` |
| `Wrapper*`, `PropertiesWrapper` | `wrapper.py` |
| `Misc*`, `PropertiesMisc` | `stat_utils.py`, `preprocessing.py` |
| `Legacy*`, `PropertiesLegacy` | `legacy/beta_version.py` |

## 3. Plan per property

| Property | Model | Proof |
|---|---|---|
| C01–C07, C67 LWA of `basis.lwa` | `Basis.v` masks and sums per row | unfold masks, sums over rows; rounding instance for C02 |
| C08–C14, C68, C69 equivalent latitude | `Basis.v` linspace, digitize, cumsum, interp on a list of cells | filter sums; interp is monotone on sorted nodes; permutation of lists; trigonometric telescoping for C10 |
| C15, C16 `BarotropicField` | cache state machine in `Barotropic.v` | induction over histories; C16 refuted by a history |
| C17–C24, C70–C72 stencils | `Utilities.v` (uninitialised memory = parameter) | telescoping and cyclic sums, weighted-mean bounds |
| C25–C29, C73 storage | `Storage.v` lists with numpy slices | list lemmas, induction over histories |
| C30–C34, C74–C76 constructor and grids | `Grid.v` | case analysis on the number of equator points; C31 in binary64 |
| C35, C36, C45–C49, C81–C84, C91–C94 LWA and flux kernels | `Flux.v`; flat memory for C47, C48, C84 | closed form of the loop nests, classification of every array reference |
| C37–C41, C44, C77–C80 call protocol | `QGState.v` | induction over call histories, invariants on the flags |
| C42, C43, C85, C90 hemispheres | `Pipeline.v` over the kernels | reindexing of sums |
| C50, C86–C89 QGPV kernels | `Qgpv.v` | comparison with the spherical curl; reindexing |
| C51–C53, C55, C95–C102 SOR solver | `RefStates.v` | fold invariants; red-black sweeps; discrete maximum principle for uniqueness |
| C54, C56, C103–C108 direct inversion | `DirInv.v` | block elimination by downward/upward induction; diagonal dominance |
| C57–C61, C111–C114 dataset layer | `Xarray.v` | list/index bijections, telescoping |
| C62, C63, C115–C121 wrapper | `Wrapper.v` | slices and signs, reuse of the `basis` theorems |
| C64, C65, C122 statistics, gap filling | `Misc.v` | index arithmetic, Cauchy–Schwarz |
| C66, C123–C125 legacy solver | `Legacy.v` | index bijection, rows of the sparse matrix, discrete maximum principle |
| C126, C127 longitudes relabelled | `Pipeline.v`, `RefStates.v`, `DirInv.v` | two runs compared: every kernel acts on one column or on circle sums; area counts are invariant under permutations of a circle |
| C128–C130, C133–C136 whole objects: rotation, mirror image, modes, signs, read-back | `Object.v` (arguments to properties) | the theorems on the kernels, lifted through linear interpolation to and from the user's grid |
| C131, C132, C137–C139 arguments and derived attributes | `Object.v`, `Grid.v` | case analysis of the constructor |
| C140–C143 shared arrays | `Alias.v` (a memory of arrays; each attribute refers to a cell; assignments rebind, copy or write in place as in the code; the values the kernels compute are left open) | invariants: the cells written in place are never the user's and never those handed out as copies; two runs, with and without the user's writes, agree on every cell the object refers to |
| C144, C145 hemisphere_to_globe followed by an analysis | `Xarray.v` composed with `Object.v` | the globe is its own mirror image up to v on the equator, then C129; counterexample computed by hand on a 4 x 5 x 3 grid |
| C146-C150 formulas between the outputs of a whole session (odd number of latitudes) | `Object.v` analysed end to end; formulas in `FormulaSpec.v` are written on the tables a user reads, rows addressed by hemisphere and distance from the equator | the stored arrays are unfolded once (`session_stored`), then the kernel theorems of Flux, Qgpv, Utilities are transported through flips, clips and slices |
| C151 even numbers of latitudes | `EvenSpec.v`: broken line through points, the arguments with one more row, tables read back at the input latitudes | scipy's interp1d (searchsorted) is shown to be the broken line; configuration, fields and kernels of the two sessions are equal, so the stored arrays are; only the read-back differs |
| C152-C157 reference states of a whole session | `StateSpec.v`: areas, caps, contours, the elliptic equation and its boundary values written on the tables a user reads; `Session.v`: counts of iterations | the theorems on the Fortran solvers (C51-C56, C91-C101) are transported through flips, clips and units to the returned tables (`StateProofs*.v`); `StateCase.v` exhibits a session that converges |
| C158-C159 refused sessions, sessions with compute_lwa_only | `Session.v`: `session_with_fluxes`, `session_with_lwa_only`, with the call that raises | case analysis on grid, named tuple, convergence; stored arrays do not depend on the solver's arguments |
| C160 forcing from heating | `Object.v: ncforce_from_heating_rate` | unfolding; interp1d is the broken line (EvenProofs) |
| C161 NaN and infinite values in `basis.lwa` | `Basis.v` on binary64 (`B64Num`) | IEEE rules for NaN, infinity times zero; induction on the sum |
| C162 masked arrays | `Masked.v`: `_convert_masked_data`, then `Object.v` | composition with C131 and C134 |
| C163 sign of wave activity under rounding | `Flux.v` on `RndNum`; `RoundSpec.v`: `rnd32` is rounding to nearest binary32 | monotone rounding; in single precision the pole is computed beyond 90 degrees: exact values of the rounded latitudes, Taylor bound of the cosine, powers of two as bounds |
| C164 bins in single precision | `RefStates.v: bin` on `RndNum rnd32` | relative error of rounding (Flocq) |
| C165 accuracy of `basis.lwa` | `Basis.v` on `RndNum rnd`, `rnd` with relative error u | all terms of a component have one sign, so relative errors accumulate without cancellation; induction on the sum |
| C166 interpolation from hybrid levels | `Hybrid.v`: pressure of the layers, interp1d with NaN outside, gridfill per level, topography | cases of searchsorted on ascending layer pressures; filling by C65; two expectations refuted |
| C167 orientation in driver programs | `Drivers.v`: axes and data of a file, the reversals of four programs | exact condition by injectivity of the axes; refuted for three programs |
| C168 output of predigest_data.py | `Drivers.v`: calendar, loop over time steps, `Object.session` at each | induction on the steps, C131; two expectations refuted |
| C169 drivers for QGFieldNHN22 | `Drivers.v`: argument list of the f2py call, rows of the named tuple, `Object.session` | computation on the argument lists; C135, C136 for the grids |
| C170 comparison plots | `PlotFiles.v`: panels with levels, contourf raises unless levels increase | minimum and maximum over all cells; refuted in two points |
| C171 time slices | `PlotFiles.v`: datasets with and without the dimension time | induction on the list of indices |
| C172 axes of dataset variables | `Xarray.v`: registry, collection of the fields | the documented table is written down again in `PropertiesXarray3.v`; case analysis over it, C-order positions |
| C173, C174 NaN in the Fortran kernels | `Flux.v`, `RefStates.v` on `Ieee.v` (SpecFloat of any format, elementary functions arbitrary) | case analysis of the comparisons with NaN, induction over the loops |
| C175 accuracy of the wave-activity kernels | `Flux.v` on `RndNum rnd` (relative error u, small integers exact, elementary functions correctly rounded, no under/overflow) | the terms of each part have one sign; cos and exp(-x) are 1-Lipschitz; induction over the loops (`FluxAccuracyProofs.v`) |
| C176 repeated calls; C141, C142 continued | `Alias.v` | invariant: an array written in place has no other name than its listed partner (`AliasProofs3.v`); after a call every instruction of it is settled, and settled instructions change nothing |
| C177 zonal totals | `Basis.v`, `Object.v` | (Q-q)+ = (q-Q)+ - (q-Q) cell by cell, sums exchanged; convexity of the total in Q (`FawaProofs.v`); session part by C147 |
| C178 influence of arguments | `Object.v`, `Session.v`, `RefStates.v` | the stores as a function of the reference states and the forcing (`InfluenceProofs.v:assemble`); induction over the iterations left for a larger maxit |
| C179 symmetric states | `Object.v`, `Session.v` | the state is its own image under the turn of C128 or the mirror of C129; one turn per longitude gives uniformity by induction |
| C180 reach of one value | `Qgpv.v` in any arithmetic and on `Ieee.v` | rewriting outside the stencil; NaN through the operations and the loop of the zonal mean |
| C181 levels | `Object.v`, `RefStates.v` | C146 and C147 on both sessions; the reference PV of a level is a fold over the cells of that level (`LevelProofs.v`) |
| C182 units of time and length | `Object.v`, `Session.v` and everything below | each kernel commutes with the conversion (`UnitProofs*.v`), including the relaxation and its stopping test; equality of whole sessions. |
| C183 missing values in the solver | `RefStates.v` on `Ieee.v` | closed form of one sweep in any arithmetic (`MissingRefProofs.v`); a missing interior value stays missing and spoils the norm of both colours; induction over the sweeps |
| C184 convergence of the over-relaxation | `RefStates.v`, `Session.v`; `ConvergeSpec.v` | energy argument (`EnergyProofs.v`, `ConvergeProofs.v`): with weights that make the five-point matrix symmetric, every update lowers a quadratic energy that is bounded below, by at least a multiple of the squared residual, so that residuals of some later sweep are below any bound; then to sessions (`ConvergeProofs2.v`) |
| C185 vertical average of the stretching term | `BudgetSpec.v` on the tables of a session | the formula of C150, telescoping over levels; counterexample with a meridional wind at the top level only |
| C186 eddy momentum along a meridian | `BudgetSpec.v` on the tables of a session | the formulas of C149 and the zeros at the outer levels, telescoping over rows |
| C187 bounds of wave activity | tables of a session | C147 and the range of the reference PV (C153, 0 included); the rows of a quarter meridian add up to at most the radius and one row |
| C188 where there is no wave activity | tables of a session | C147; a sum of non-negative terms vanishes with every term, the row of the pole has weight 0 |
| C189 change of wave activity with the PV | tables of two sessions | C147, Lipschitz constant of the positive part, the rows of a quarter meridian as in C187 |
| C190 datasets field by field | `DatasetSession.v`: the dataset of `Xarray.v` with the field objects of `Object.v`/`Session.v` as its class | C58's lemmas on construction, calls and collection; equality of the arguments of equal slices; C131, C172 for success |
| C191 wave activity of datasets | as C190 | C190 with C133 |
| C192 memory of the routines | `Memory.v`: the array references of the eight routines other than the flux kernel, with declared extents and loops; the bin of a cell is `RefStates.bin` | taking the lists apart, linear arithmetic; C51's range of the bins. With a boundary next to the pole the model of the direct inversion (`DirInv.v`) gives the elements outside an array some value, so results of such objects say nothing about the code |
| C193 heights of the inversion | `Heights.v`: numpy's rule for the length of arange and the check of f2py, with a rounding function; `rnd64` is Flocq's binary64 rounding to nearest even without overflow | Flocq's relative error and exactness of small integers; the counterexample by computing three roundings |
| C194 reports of NaN | `Warnings.v`: the array fawa of the direct inversion, with the former contents of its local arrays as arguments, and the count of NaN | unfolding, and induction over the contours for the elements that are computed |
| C195 unit of temperature | as C182 | the proofs of C182 carry the factor of temperature through every kernel; hypothesis: the splines scale with the temperatures (true of interpolating splines, not of the default smoothing of UnivariateSpline) |
| C196 differences of potential temperature | Object.v as C128; OffsetSpec.v: the same arguments with a constant added to theta, splines that follow the data | the constant passes through the interpolations (weights add up to one) and the hemispheric means, and cancels in the stretching term; the kernels see the same potential vorticity; both solvers use temperature only through zonal mean differences, so Uref is the same and the reference temperature follows, and the constant cancels in the flux kernels |
| C109, C110 mirrored states | `Pipeline.v`, `RefStates.v`, `DirInv.v` | the two hemispheric calls exchange |

Every listed property is expressed in the model; none is `not_applicable`.

Properties the code violates are kept in their full English form; the theorem is then
`…_refuted` (a witness, or the negation for every input of a class) together with the strongest version that
does hold, and the MANIFEST entry has status `partial` with a note.

## 4. Trusted base

* Coq 8.16.1 kernel.  `vm_compute` is used in a few examples and binary64 facts (kernel-checked conversion).
  `coqchk -o` accepts the compiled files.
* Axioms, all of the standard library, as printed by `Print Assumptions` (full list per theorem in `ASSUMPTIONS.md`):
  - `ClassicalDedekindReals.sig_forall_dec`, `ClassicalDedekindReals.sig_not_dec`,
    `FunctionalExtensionality.functional_extensionality_dep` — construction of `R` in `Coq.Reals`;
  - `Classical_Prop.classic` — used by `Coq.Reals` (`Rtrigo`, `Ratan`, …) for `sin`, `cos`, `asin`, `sqrt`.

  Theorems of `PropertiesStorage`, `PropertiesState` and the parts of the grid and dataset layers that do not
  mention reals are closed under the global context.  No axiom of our own; no section variable outlives its section.
* Libraries: Coq's standard library; Flocq (definitions of rounding to binary64 and their lemmas, no axioms beyond the above).
* The reading of `/repo`: nothing is extracted or run; the model is a manual transcription.

## 5. Assumptions about external code

| Code | Reading in the model |
|---|---|
| numpy slicing, broadcasting, `digitize`, `histogram`, `linspace`, `cumsum`, `interp`, `unique`, `argwhere`, `cov`, `reshape`, `swapaxes` | their documented meaning, written out as definitions |
| numpy/Fortran summation | left to right; irrelevant over `R` |
| `np.empty` and Fortran locals | arbitrary initial contents |
| f2py | intent(out) arrays are zero-filled; a wrong shape or `None` raises; no bounds checks in the kernels |
| Fortran `int()` | truncation towards zero |
| `scipy.interpolate.interp1d` | linear on the nodes; `fill_value="extrapolate"` extends the end pieces, otherwise a point outside raises `ValueError` |
| `scipy.interpolate.UnivariateSpline` | arbitrary function of its data (parameter `spline`, `dspline`) |
| LAPACK `getrf`/`getri` | parameter; returns the exact inverse of every nonsingular matrix (`DirInv`).  Such a function is constructed (Gaussian elimination) |
| `scipy.sparse` `csc_matrix`, `spsolve` | repeated entries add up; exact for regular matrices (`Legacy`).  Such a solver is constructed (`LinAlg.gauss`) |
| xarray `sel`, `reindex`, `concat`, `integrate`, alignment | documented meaning on labelled arrays, labels as numbers |
| `gridfill.fill` | parameter: keeps unmasked points, returns numbers |
| python `dict`, properties, exceptions | association lists, attributes of a record, values |

## 6. Modelled and not modelled

Modelled: every function of `basis.py`, `barotropic_field.py`, `utilities.py`, `data_storage.py`, `stat_utils.py`,
`preprocessing.py`, `wrapper.py`; of `oopinterface.py` the constructors, the public methods and properties and the helpers they
call, and their composition from constructor arguments to property values (`Object.v`), and the sharing of arrays with the user (`Alias.v`); of `xarrayinterface.py` the three public entry points and the helpers, and its composition with the field objects (`DatasetSession.v`); `legacy/beta_version.py` with
`use_real_Data=True` and without plots; all Fortran routines that `meson.build` builds;
`netcdf_utils.py`; of `plot_utils.py` the two comparison plots (fields, levels, exceptions); of `scripts/` the interpolation from
hybrid levels (`Hybrid.v`) and the four programs that create QGField objects (`Drivers.v`).

Not modelled: the other functions of `plot_utils.py`; `scripts/nhn_grl2022/graph_plot_module.py` and
`scripts/mdtf_predigest_data/plot_from_predigest.py` (plots only); `beta_version.py` with `use_real_Data=False`
or its plots; `interpolate_fields_direct_inv.f90` (not built by `meson.build`); text printed to stdout; array attributes and
error texts; lazy (dask) arrays; memory consumption and speed; NaN/Inf propagation except in `basis.lwa` (C161), the flux kernels (C173), the binning (C174), QGPV (C180) and the NH18 solver (C183); negative `nlat_s`; rounding errors, except where a theorem names binary64, binary32 (C163, C164: correctly rounded elementary functions, no overflow) or a rounding function.

## 7. Wrong programs

`tools/seed.py edits.json` applies each edit to a scratch copy of the model outside `/verif`, rebuilds, replaces every proof that
breaks by an admitted one (in the scratch copy only), and reports which property theorems rest on a broken proof.  One line per edit goes to
`seeded/LOG.jsonl`.  An edit that leaves every theorem intact although its claim is now false leads to a stronger theorem.
