# Formal model of chpolste/barotropic — design

Model and proofs: Rocq/Coq 8.16.1, sources in `rocq/theories` (logical name `Verif`).
Property texts: `properties.jsonl` (generated by `tools/gen_properties.py`). Status per property: `MANIFEST.json`.

## Layout

| kind | files | content |
|---|---|---|
| model | `Base.v`, `Model_*.v` | computable-style definitions mirroring the Python functions branch by branch; every definition cites file and lines. No proofs. |
| specification | `Spec_*.v` | small independent definitions used in theorem statements (interpolants, integrals, sets of longitudes ...), never referring to the model |
| lemmas | `Proofs_*.v` | all proofs |
| theorems | `Props_*.v` | only `Theorem ... Proof. exact lemma. Qed.`, `Example`s showing the hypotheses are met, and `Print Assumptions` |

## Modelling decisions (apply everywhere)

* **Numbers.** Python/NumPy floats are modelled by exact reals (stdlib `R`). Rounding, overflow and
  NaN are not modelled, except: (a) IEEE infinities and NaN in the stationary-wavenumber / waveguide
  code (type `ext` of reals extended by +inf, -inf, NaN with IEEE rules), (b) binary64 arithmetic
  (stdlib `SpecFloat`, executable) where a property is about truncation, absorption or rounding (C03, C31, C106 to C108, C126, C127, C131, C136),
  (c) binary32 arithmetic (`Model_Single.v`) for the complex64 eigenvalues (`grid.py:71-77`), laplace, poisson and diffusion of
  spectral coefficients (C129, C130). How NumPy multiplies, divides and raises complex64 arrays to integer powers is not part of
  /repo: it is written down in `Model_Single.v` from knowledge of NumPy's C code and has not been checked against an installed NumPy.
  Elsewhere the casts to float32 are not modelled.
* **Arrays.** 1D arrays are `list R`, 2D arrays `list (list R)` with rows = latitudes (north first), columns = longitudes.
  Spectral fields are `list C` (pairs of reals) in pyspharm order.
* **Exceptions** are values: `res A = Ok a | Err e` with the Python exception class.
* **Loops** with unbounded trip count (only `BarotropicModel.run`) recurse on fuel; exhaustion is the
  separate value `Err OutOfFuel`, which theorems exclude or (for non-termination) quantify over.
* **pyspharm** (`Spharmt` methods) is external compiled code: a record of functions (`spharm`), universally
  quantified in the theorems. What a theorem needs of it is a hypothesis visible in its statement:
  linearity, "analysis after synthesis after analysis = analysis" (analysis projects), "vorticity of the wind computed from a
  mean-free vorticity and zero divergence is that vorticity", "divergence has zero global mean". A concrete instance
  (degree-1 harmonics on the 90-degree grid) proves these satisfiable, as do harmonics up to a higher degree on every grid (C133).
* **scipy/numpy library routines** used on plain data (`np.interp`, `interp1d` linear, `ndimage.convolve`,
  `convolve2d` wrap, `get_window`, FFTs, `np.roll`, `argmax` ...) are modelled by their documented formulas, cited in comments.
* **xarray** datasets are modelled by a small record (dims, coordinates, variables).
* When the code violates the documented property, the violation is proved as a theorem `..._refuted` and the
  part that does hold is proved as `..._partial`.

## Plan per property

| id | modelled | proof |
|---|---|---|
| C01 | Grid.__init__ coordinates over R | induction-free list algebra, lra |
| C02 | same | equivalence: spacing agrees iff 180/res resp. 360/res is an integer; refuted with res = 7 |
| C03 | shape computation over R and over binary64 (SpecFloat) | R: floor of an integer; binary64: refuted by vm_compute for n = 169 |
| C04 | __eq__ with np.isclose over R, __hash__ as injective key tuple | reflexivity proved; symmetry, transitivity, hash-consistency refuted |
| C05 | coriolis, circumference | sin/cos monotonicity; RInt of circumference (Coquelicot) |
| C06 | gridpoint_area | telescoping sum; refuted for res = 7 |
| C07, C08 | Grid.mean with axis/region | weighted-sum algebra |
| C09 | quad_meridional sptrapz, per column | per segment: antiderivative + Chasles (Coquelicot `is_RInt`), induction over segments |
| C10, C11 | quad, both methods | corollaries of C09 and sums |
| C12 | equivalent_latitude on number/array values | asin/sin inverse; number input refuted (TypeError) |
| C13–C15 | zonalize | from C09–C12 |
| C16 | interp1d linear incl. sorting and searchsorted | induction over sorted nodes; undefined value at duplicated south pole refuted |
| C17–C19 | derivative_meridional | ring/field on stencils; Taylor–Lagrange remainder |
| C20–C22 | spectral index, laplace, poisson, diffusion | pointwise complex algebra over the index list |
| C23 | _apply_diffusion | linearity |
| C24 | State with explicit cache slots, one step per attribute read | invariant over all read histories |
| C25–C29 | State constructors/operators | algebra from oracle hypotheses |
| C30–C38 | euler, leapfrog, run (generic in time arithmetic) | induction over steps, invariants |
| C39–C46 | rhs.py | structural induction, LRU invariant |
| C47–C51 | region indexer and GridRegion | list filters, roll lemma |
| C52–C55 | StateList | list induction |
| C56–C61 | as_dataset / from_dataset | list induction, product order |
| C62–C65 | filters | finite sums, modular re-indexing |
| C66–C68 | rfft/irfft/hilbert as finite trigonometric sums | orthogonality of characters |
| C69–C71 | falwa, fawa | integral comparison via C09; linearity of interpolation |
| C72–C75 | stationary_wavenumber, extract_ks_waveguides over `ext` | case analysis; scan invariant |
| C76, C77 | init.py | list algebra |
| C78–C84 | formatting.py, plot.py data helpers | case analysis, list algebra |
| C85, C86 | grid_region_repr, Grid.mean with region | counting intervals; re-indexing of sums |
| C87 | quad_meridional boxcount | step function integrals (Coquelicot `is_RInt`), Chasles |
| C88 | euler, leapfrog without background | coefficient algebra on top of C20–C23 |
| C89–C91 | Grid.wind, vorticity, divergence, laplace, solve_*, gradient | from `exact_on` and `calculus_on` |
| C92 | quad_meridional input checks | case analysis on array rank and shape |
| C93 | dominant_wavenumber_wavelet, `pywt` a parameter | argmax lemmas, logarithmic spacing, filter bounds |
| C94 | zonalize with interpolation | monotone interpolation between contour latitudes, C13–C16 |
| C95 | State.__init__ | case analysis, `exact_on` |
| C96–C99 | plot.py figures as lists of drawn objects | roll/relabel algebra, level lemmas, NaN-separated polylines |
| C100–C102 | representations as UTF-8 code points | parsing of lines, unique readability of parenthesized expressions |
| C103–C105 | compound shortcuts of State, from_hn2016 without grid | circular sums of Hann means, floor arithmetic |
| C106 | grid shape in binary64 | SpecFloat = Flocq division, relative rounding error, floor |
| C107, C108 | clock of an integration in binary64 | bisimulation with exact times; accumulated rounding errors |
| C109, C110 | renumbered longitudes, change of units of PV | equivariance of quadrature, sorting and interpolation |
| C111 | rotated and reflected integrations | equivariance of transforms (assumed), products, diffusion, filter and time loop |
| C112 | steady zonal flow | rotation and east-west symmetry force v = 0 and a PV flux without divergence; induction over steps |
| C113 | forcing on the rotated and reflected sphere | induction on forcing expressions related by `alike`; equivariance of gradient, wind and relief |
| C114 | hemispheres in contour diagnostics | complementary areas of z >= 0 and -z >= 0, reflected meridians, uniqueness of the interpolant |
| C115 | levels and vectors of the figures | unfolding of the figures, levels by index, extremes of fields |
| C116 | relaxation towards a reference | linear recursion of pairs of deviations, its two real eigenvalues, no flux of zonal flow |
| C117 | diffusion of zonal flow | contraction of pairs of deviations in the maximum norm |
| C118 | stationary wavenumber on the rotated and reflected sphere | stencils of reversed profiles; list of all boundaries, reversed |
| C119 | mean over a region | weighted mean of C07, sum over the mask |
| C120 | State or array as input of diagnostics | difference formulas are bounded, two PV profiles |
| C121 | rotated and reversed longitudes in Fourier diagnostics | coefficients turn by an orthogonal matrix, sums over permuted longitudes |
| C122 | accuracy of the stationary wavenumber | value of C72 with the error bound of C18 |
| C123 | wavenumber ranges of any Python numbers | slice positions of negative numbers, reduction to C66-C68 |
| C124 | Fourier restriction with an odd number of longitudes | orthogonality on odd circles, synthesis on the even one |
| C125 | derivative for every resolution | ratio of nominal and actual spacing |
| C126 | coordinates in double precision | error of three roundings; multiples of a power of two are exact |
| C127 | regions in double precision | comparison of doubles is that of their values |
| C128 | power of zonal waves | Parseval from the synthesis formula |
| C129 | eigenvalues in single precision | relative errors of roundings compose |
| C130 | diffusion in single precision | the same for powers; products below 2^-150 round to 0 |
| C131 | single coordinates in double precision | rounding errors against the tolerance of np.isclose |
| C132 | Rossby-Haurwitz waves | each coefficient obeys a two-step linear recursion: its eigenvalues, and a discrete Gronwall bound for the error |
| C133 | spherical harmonics on the points of a grid | Rodrigues polynomials: differential equation, orthogonality, interpolatory quadrature, discrete Fourier orthogonality |
| C134 | energy, enstrophy, angular momentum | adjointness of divergence and gradient in the quadrature, Parseval, triple products without aliasing |
| C135 | fields of integers | truncation of the filtered values and of the pole values; one-level interpolation |
| C136 | coordinates of datasets in double precision | rounding errors of the differences against the tolerance; rounding commutes with factors of two |
| C137 | diffusion in the budgets of C134 | Parseval with one factor in (0, 1] per coefficient; momentum is the coefficient of order 0 and degree 1 |
| C138 | arrays with addresses in a memory, States with slots that hold addresses | every program simulates the pure computation and only extends the memory; invariant: what a State keeps are the fields of the state it stands for |
| C139 | wrap into the range of a type after every operation | wrapped operations agree modulo 2^w, so a whole stencil is wrapped once; sums of segments with tame differences; areas of all-nonnegative regions |
| C140 | memory as a list of cells, arrays as lists of addresses, programs that may raise | a write to a slice of a new block replaces a segment of it, a masked write chooses elementwise; entries of the final block are compared with the closed formulas |
| C141 | keyword arguments as a list of names and values; the checks of the constructors in their order | lookup in lists without repeated names, case analysis of the values; the stored squares give the same relief as Model_RHS |
| C142 | C43 and linearity of the transforms | np.interp is affine in the heights for every position; gradient of a constant is zero; entries of the forcing |
| C143 | harmonics; the first coefficient is the mean | a flow without divergence is orthogonal to gradients (adjoint of the divergence); zonal derivatives average to zero along circles; induction over steps; witness: wave and relief of order and degree 1 |
| C144 | harmonics; the coefficient of order 0 and degree 1 is the angular momentum | torque as a coefficient of the analysis; the flux has none (C134); circles of latitude for zonal winds (C143); induction over steps; witness of C143 |
| C145 | the model of run with timedelta times | a function from states with elapsed time to states with dates commutes with every step; the other claims follow from those on dates (C30, C31, C38) |
| C146 | harmonics; the coefficient of order 0 and degree 1 is the angular momentum (C144) | the flux of PV has no such coefficient, so the recursion of C116 holds for it in every flow; the bounds of C116 |
| C147 | models of run and of products of terms | value of the product at each state; the times of the states (clock of C30); induction over steps |

## Trusted base

1. The Coq 8.16.1 kernel (and the compiled standard library, Coquelicot and Flocq `.vo` files it loads). No kernel
   check is switched off; the development has no axioms, `Admitted`, section-less variables, functors, module types or plugins.
2. The standard-library axioms that `Print Assumptions` lists, per theorem in the table below (generated by
   `tools/gen_assumptions.py`). They are the axioms of the classical real numbers of Coq's standard library
   (`sig_forall_dec`, `sig_not_dec`), functional extensionality, and excluded middle. No axiom of another library appears.
3. That the model says what the code does (next two sections), i.e. the reading of the Python source and of the
   documentation of NumPy, SciPy, pyspharm, xarray, pywt and matplotlib.

### What is modelled, file by file (`/repo/src/barotropic`)

| source | model | left out or idealised |
|---|---|---|
| `grid.py` Grid.__init__, ==, hash, circumference, coriolis | `Model_Grid.v`, binary64 shape computation in `Model_Float.v`, binary64 coordinates in `Model_FloatGrid.v` | `hash` is an injective function of the hashed tuple (collisions between different tuples ignored); `legfunc`, `gridtype` arguments of Spharmt are passed to the abstract pyspharm |
| `grid.py` spectral transforms, wind, vorticity, divergence, gradient, laplace, poisson, diffusion | `Model_Spectral.v`, binary32 eigenvalues, laplace, poisson and diffusion in `Model_Single.v` | pyspharm abstract (below); float32 casts of the eigenvalues (grid.py:71-77) outside of `Model_Single.v`; ValueErrors of pyspharm for arrays of wrong shape |
| `grid.py` derivative_meridional | `Model_Deriv.v` | – |
| `grid.py` gridpoint_area, mean, regions | `Model_Region.v`, ranges in binary64 in `Model_FloatGrid.v`, single values in binary64 in `Model_FloatPick.v` | arrays with more than two dimensions are one case `AOther`; other objects accepted by `extract` |
| `grid.py` quad, quad_meridional, equivalent_latitude, zonalize, interp1d_meridional | `Model_Quad.v` | interpolation kinds other than linear; warnings |
| `grid.py` filters | `Model_Filter.v`, arrays of integers in `Model_Dtype.v` | windows other than boxcar, triang, hann |
| `grid.py:296-343, 486-573, 599-662` for machine integers | `Model_Machine.v` | unsigned integers times negative numbers (depends on the version of NumPy); levels that do not fit into the type of the field |
| `state.py` State | `Model_State.v` (values), `Model_Lazy.v` (memoisation with explicit slots and read histories) | `State(grid, time)` without PV is reported at construction, in the code at first use |
| `state.py`, `model.py`, `rhs.py`: which arrays are shared, kept and written into | `Model_Memory.v` | arrays of a Grid and `diffusion_bg` as mutable arrays; arrays inside diagnostics and pyspharm |
| item assignments: `grid.py:316-343, 379-383, 415-432, 524-570, 592-597, 954-959, 982-1000`, `diagnostics.py:26-28, 296-303` | `Model_Inplace.v` | arrays of more than two dimensions; partial writes within one assignment |
| constructors of mountains: `rhs.py:125-143, 202-217, 233-246` | `Model_Mountain.v` | arrays as arguments; orography of attributes that are not numbers |
| `state.py` StateList | `Model_StateList.v` | – |
| `model.py` | `Model_Run.v`, time arithmetic in `Model_Time.v` | datetime/timedelta overflow; keyword/positional plumbing |
| `rhs.py` | `Model_RHS.v` | broadcasting beyond what rhs.py uses; the `lru_cache` is modelled with its size and key, hash collisions ignored |
| `init.py` | `Model_Init.v` | – |
| `io.py` | `Model_IO.v`, coordinates in binary64 in `Model_FloatIO.v` | attributes, dtypes, datetime64 range and rounding; see the header of the file for the part of xarray used |
| `diagnostics.py` FALWA/FAWA | `Model_Falwa.v` | cos(±90°) is the value NumPy returns (6.1e-17) and not 0, everything else exact |
| `diagnostics.py` Fourier, Hilbert, filter_by_wavenumber | `Model_Fourier.v`, `Model_Ranges.v`, `Model_Filter.v` | wavenumber ranges are non-negative integers in `Model_Fourier.v` and any numbers in `Model_Ranges.v` (the two agree: C123_natural); `scipy.signal.hann` is assumed to exist (it was removed in SciPy 1.13, where filter_by_wavenumber raises AttributeError) |
| `diagnostics.py` wavelets | `Model_Wavelet.v` | pywt abstract (below) |
| `diagnostics.py` stationary wavenumber, waveguides | `Model_Ks.v` | infinities and NaN modelled, signed zeros not |
| `diagnostics.py` `_get_grid_vars` | `Model_Dispatch.v` | a State together with a grid is not modelled |
| `formatting.py` | `Model_Format.v`, region map in `Model_Region.v`, representations in `Model_Repr.v` | `repr`/`str` of floats is an abstract function |
| `state.py` falwa_filtered, v_envelope_hilbert | `Model_Shortcuts.v` | NaN in FALWA stops the model |
| `plot.py` data helpers | `Model_Plot.v` | – |
| `plot.py` figures | `Model_Figure.v` | titles, colours, colorbars, legends, layout; of matplotlib only: contour levels have to increase and be at least two for filled contours, arrays have to agree in shape, NaN interrupts lines |

Everywhere: floats are exact reals unless the theorem is about `ext` or binary64, so results about equality hold in the
code up to rounding. One known consequence is treated separately: 360/(360/N) computed in binary64 may truncate to N-1 (C03, C56).

### Assumptions about external code, visible as hypotheses

* `exact_on T g` (`Spec_Spectral.v`): analysis and synthesis of pyspharm are linear, keep shapes, analysis projects,
  constants are represented by coefficient 0, wind and vorticity are inverse for mean-free vorticity, divergence and curl have no mean.
* `calculus_on T g` (`Spec_Calculus.v`): a degree-wise multiplier keeps resolved fields resolved, Helmholtz decomposition,
  curl grad = 0 and div grad = Laplacian coefficient by coefficient.
* `rotates T g`, `reflects T g`, `reverses T g` (`Spec_Symmetry.v`): the transforms commute with rotation by a gridpoint, with
  reflection in the equator and with reversal of the longitudes; `gradient_rotates`, `gradient_reflects` (`Spec_SymForcing.v`): so
  does the gradient (used by C111 to C113 only).
* `resolved_divergence T g` (`Spec_Relax.v`): divergences are resolved fields (C116, C132); `products_on T g n` (`Spec_Waves.v`): the fluxes
  of sin(latitude) and of harmonics of degree n by their flows are transformed without aliasing (C132 only).
* All are proved satisfiable by a concrete transform (`Spec_Instance.v`, `Proofs_Calculus.v`, `Proofs_SymInst.v`: spherical harmonics of degree ≤ 1
  on the 90-degree grid), which is also what the Examples beside the theorems use; `products_on` by the transform of `Spec_Simpson.v`,
  which differs from the first in the quadrature along the meridian (Simpson's rule). On every grid they are met by the spherical
  harmonics of `Spec_Harmonics.v` up to a degree below half of nlat and nlon (C133). Whether pyspharm computes these is not proved.
* `cwt_keeps_length W`, `0 < central_frequency W` (`Props_Wavelet.v`): pywt.cwt returns one coefficient per sample.
* Theorems without such a hypothesis hold for every function in the place of pyspharm or pywt.

### Not modelled at all

Rounding errors (except as stated), performance and memory, warnings, docstrings, the `legfunc` choice, thread safety,
`StatePlotter` and other one-line forwarding methods (`State.run`, `State.plot`, `StateList.as_dataset`), and imports of optional packages.

### Print Assumptions per theorem

<!-- ASSUMPTIONS -->
* **none (closed under the global context)** — 27 theorems:
  C03_shape_from_intervals_binary64_refuted C12_number_refuted C25_from_pv C27_refuted C43_wind_kinds C53_indexing C53_slices_partial C53_slice_positions C53_slice_is_no_statelist_refuted C54_empty_container_refuted C78_dataset_time_refuted C79_faithful C79_characters C81_no_data C83_same_points C83_row_bounds C56_float_refuted C89_gridded_or_spectral C95_one_argument C100_characters C100_shown C101_unambiguous C102_identifies C106_sign C106_undefined C109_rotation C138_growth
* **`ClassicalDedekindReals.sig_forall_dec`** — 8 theorems:
  C50_extract_many C25_gridded_states C39_builds C83_nonempty_refuted C95_attributes C101_operators C141_sine_accepts C141_sine_errors
* **`ClassicalDedekindReals.sig_forall_dec`, `FunctionalExtensionality.functional_extensionality_dep`** — 105 theorems:
  C01_grid_coordinates C01_grid_shape C02_nominal_spacing_refuted C03_shape_from_intervals_partial C04_grid_equality_partial C04_grid_equality_symmetric_refuted C04_grid_equality_transitive_refuted C04_grid_hash_refuted C47_latitude_slices C47_hemispheres C47_slices_accepted C48_longitude_slices C49_lon_mono C50_extract_field C50_extract_profiles C50_mask C50_extract_errors C51_single_values C51_single_found C51_only_index_errors C51_malformed C51_repr_partial C51_repr_refuted C85_repr_map C16_interpolation_1d_partial C16_interpolation_2d_partial C16_south_pole_data_refuted C20_laplacian C20_poisson_inverts C21_helmholtz_partial C21_mean_refuted C29_eddy_zero C29_decomposition C23_background_fixed C23_deviation C23_zero_background C23_background_free C42_linear C52_statelist_accepts_partial C52_statelist_type_error C52_statelist_assertion_error C52_statelist_no_other_outcome C52_pairwise_equal_grids_refuted C53_concatenation C53_identity C53_associative_partial C53_associative_refuted C54_attribute_items C54_method_items C54_container_partial C54_collection_succeeds C54_unequal_shapes C54_grid_attribute C78_same_instant C78_unit C78_displayed_partial C80_rotation C80_labels C80_centered_partial C80_centered_refuted C81_levels C81_override C82_spacing C82_zero_iff C82_zero_partial C82_default_bounds C82_zero_refuted C83_nonempty_partial C84_zonal C84_meridional C84_rejected C73_ordered_partial C74_contains_partial C74_crossings_partial C74_infinite_refuted C74_crossings_refuted C75_finite_iff_partial C59_names C60_fields C60_lat_is_not_lon C60_coordinates C60_no_states C60_unsupported_partial C60_unsupported_refuted C61_same_grid C61_equal_grid C89_wind_inverts C90_laplace C90_poisson C90_helmholtz C91_gradient C91_constant C101_terms_needed C106_rounded_up C118_ties_refuted C125_factor C126_symmetry_refuted C127_inclusive_refuted C135_interpolation C135_poles C140_poisson C140_region C140_ks2 C141_gaussian_accepts C141_gaussian_errors
* **`ClassicalDedekindReals.sig_forall_dec`, `ClassicalDedekindReals.sig_not_dec`, `FunctionalExtensionality.functional_extensionality_dep`** — 308 theorems:
  C02_nominal_spacing_partial C05_coriolis C06_cell_areas_partial C06_total_area_refuted C07_mean_constant C07_mean_linear C07_mean_bounds C07_mean_of_zonal_means C07_mean_formula C08_mean_axis_synonyms C08_mean_bad_axis C08_mean_bad_shape C86_mean_of_extracted_partial C86_mean_of_extracted_refuted C09_interpolants_exist C10_surface_partial C10_surface_factor C10_surface_refuted C11_linear C11_split C87_step_functions_exist C17_linear_profile C17_linear_field C19_bad_order C19_small_grid C19_output_shape C22_diffusion_step C24_lazy_unobservable C24_values C25_relative_vorticity C25_from_vorticity C25_from_wind_partial C25_from_wind_refuted C26_add_vorticity_field C26_add_vorticity_state C26_add_wind_state_partial C26_add_wind_tuple_replaces C26_add_wind_tuple_refuted C28_roundtrip C29_nonnegative C29_values C30_stops_numbers C30_stops_dates C30_returns_numbers C30_returns_dates C30_past C31_terminates_numbers C31_terminates_dates C31_diverges C31_double_precision_refuted C32_saves_partial C32_absolute_times C32_no_saving C32_start_time_refuted C33_numbers C33_double_precision C33_dates C34_mean_conserved C34_every_step C35_motionless_partial C35_diffusion_refuted C36_times C36_filter C36_no_filter C36_straight_lines C36_computational_mode C36_new_state C37_statelist_partial C37_past_refuted C38_same_fields C38_mixing_tend C38_mixing_dt C38_save_every_datetime C88_tendency C88_euler C88_leapfrog C39_pointwise_partial C39_numbers_refuted C40_switch_numbers C40_switch_dates C40_sequence_numbers C40_sequence_dates C40_product C40_mixing C41_relaxation C41_euler_step C42_same_grid C42_interpolation C43_forcing C43_linear_in_wind C43_flat C43_solid_body_state_free C43_zonal_wind C44_cache_unobservable C45_distance_partial C55_run_each C55_run_raises C76_wind_profile C76_pv_profile C76_rejected C76_both_or_neither C77_solid_body_rotation C77_gaussian_jet C77_gaussian_jet_zero_width_refuted C77_held_1985 C62_window C62_weights C62_returns C63_by_name C63_rows C63_constants C63_mean C63_rotation C63_linear C63_range C63_rejected C64_by_name C64_constants C64_range C64_columns C64_reflection C64_linear C65_value C65_range C65_constants C65_profile C65_profile_size C66_inside C66_outside C66_spectrum_partial C66_coefficients_determine C66_linear C66_idempotent C66_all_wavenumbers C66_split C66_odd_refuted C67_inside_partial C67_outside_partial C67_bound_partial C67_odd_refuted C68_offset_partial C68_from_zero_partial C68_wave_refuted C68_empty_range C72_squared C72_wind_only C72_variants C72_errors C72_not_nan C73_refuted C74_same_variants C75_refuted C56_grid_partial C56_offset_refuted C56_poles_refuted C57_missing_coordinates C57_irregular_longitudes C57_irregular_latitudes C57_not_a_coordinate C57_accepted_partial C57_extent_refuted C58_flatten C58_accepts C58_repeated_labels C59_source C59_nothing C59_wrong_override C61_roundtrip_wind_partial C61_roundtrip_pv_partial C61_equal_times_refuted C61_mean_vorticity_refuted C61_odd_longitudes_refuted C61_empty_refuted C90_diffusion C92_accepted C92_domain C92_rank C96_summary_maps C96_profiles C96_vectors_partial C96_default_center C96_vectors_refuted C97_summary C98_summary C98_waveguides C99_lines C99_drawn C100_equation_partial C100_equation_refuted C104_waves C104_bound C104_odd_refuted C105_new_grid_partial C105_odd_refuted C105_planet_refuted C108_constant_step_refuted C109_quad C111_rotation C111_reflection C111_fields C111_stays_zonal C111_stays_symmetric C112_steady C112_no_northward_wind C112_initial_states C113_rotated_forcing C113_reflected_forcing C113_rotated_run C113_reflected_run C113_repeats C113_sine_mountains C113_equatorial_mountains C113_counterparts C115_summary C115_vectors C116_mean C116_zonal C116_run C116_threshold C116_threshold_mean C116_exception C117_background C117_uniform C118_rotation C118_reflection C118_state C118_waveguides_partial C118_state_waveguides_partial C118_waveguides_refuted C119_mean C119_other C120_sensitivity_partial C120_ks_refuted C121_dominant C121_restrict_partial C121_envelope_partial C121_filter C121_odd_refuted C123_restrict C123_range_partial C123_envelope C123_dominant C123_no_wavenumber C123_length C123_natural C123_range_refuted C123_number_refuted C124_spectrum C124_mean C124_wave C124_envelope C128_total C128_power C128_pythagoras C128_closest C128_envelope C128_scale C128_dominant C132_form C132_steady C132_damping C132_stable C132_unstable C133_points C133_all_refuted C135_filters C135_floats C135_masks C135_mean_refuted C138_attributes C138_forcing C138_run C138_careful C138_new C138_kept C138_pv_argument C138_pv_spectral_argument C138_written_pv C138_written_refuted C139_derivative_field C139_derivative_profile C139_derivative_small C139_derivative_unsigned C139_quad C139_quad_everywhere C139_quad_half C139_quad_refuted C140_derivative C140_area C140_trapz C140_restrict C141_gaussian C141_sine C142_interpolation C142_superposition C142_sum_of_terms C142_offset C142_scale C145_dates C145_stops C145_terminates C145_switch C145_mixing C145_save_every C147_before C147_after C147_dates C147_elapsed
* **`ClassicalDedekindReals.sig_forall_dec`, `ClassicalDedekindReals.sig_not_dec`, `Classical_Prop.classic`, `FunctionalExtensionality.functional_extensionality_dep`** — 170 theorems:
  C05_circumference C09_sptrapz_exact C09_sptrapz_exact_no_domain C11_monotone_field C11_monotone_domain C12_equivalent_latitude_partial C13_zonalize_preserves_area C14_symmetric_in_place_partial C14_symmetric_in_place_refuted C15_automatic_levels C87_boxcount_exact C17_exact_profile_partial C17_exact_field_partial C17_exact_refuted C18_accuracy_profile_partial C18_accuracy_field_partial C18_accuracy_refuted C45_gaussian C45_periodic_refuted C46_sine_mountains C69_defined C69_integral C69_nonnegative C69_interpolated_partial C69_refuted C70_contours C70_interpolated_partial C70_refuted C71_boxcount C71_sptrapz_partial C71_levels_partial C71_distinct_partial C71_refuted C93_dominant_partial C93_range C93_resolution C93_covers_partial C93_long_waves_refuted C93_odd_refuted C93_zero C94_profile C94_constant C94_outside C96_wave_activity_maps C96_rwp_maps C96_wave_activity_profiles C97_wave_activity_partial C97_wave_activity_refuted C97_rwp_partial C97_rwp_refuted C98_wave_activity C98_rwp_diagnostics C103_filtered_partial C103_zonal_mean C103_window_refuted C106_longitudes C106_latitudes C106_model C106_exact C106_intervals C107_exact C107_terminates C108_drift C108_step C108_terminates C108_final_time C109_falwa C109_fawa C109_zonalize C110_falwa C110_fawa C110_zonalize C114_contours C114_zonalize C114_falwa_contours C114_falwa C114_fawa C114_inner C114_state C114_ties_needed C114_resolution_needed C115_wave_activity C115_rwp_diagnostics C120_state C120_no_grid C121_state C122_accuracy_partial C122_solid_body_partial C122_sign_partial C122_accuracy_refuted C125_polynomial_profile C125_polynomial_field C125_accuracy_profile C125_accuracy_field C125_wavenumber C125_error C126_latitudes C126_longitudes C126_exact_latitudes C126_exact_longitudes C127_latitudes C127_longitudes C127_model C127_tolerance_latitudes C127_tolerance_longitudes C127_poles C127_equator C129_eigenvalues C129_increasing C129_inverse C129_exact_refuted C130_accuracy C130_low_orders C130_order4 C130_order5 C130_damping_refuted C131_latitudes C131_longitudes C131_found C131_own C131_not_finite C131_fine_refuted C131_wrap_refuted C132_accuracy C132_run C133_laplacian C133_gradient C133_wind C133_transforms C133_resolved C133_symmetries C133_products C133_waves C134_tendency C134_euler C134_leapfrog C134_steps C134_momentum C134_energy_refuted C135_zonalize C135_zonalize_refuted C136_accepted C136_exact C136_small C136_doubled C136_kept_refuted C136_odd C137_enstrophy C137_energy C137_absolute C137_rest_refuted C137_euler C137_momentum C139_levels C139_levels_signed C139_integer_levels C139_integer_levels_unsigned C140_eqlat C143_budget C143_constant_coriolis C143_zonal_wind C143_integration_partial C143_integration_refuted C144_budget C144_zonal_wind C144_integration_partial C144_integration_refuted C146_momentum C146_threshold C146_exception
<!-- END ASSUMPTIONS -->

## Mutation testing

`seeded/mutants.py` lists edits of the model that imitate realistic bugs; `tools/run_mutants.py` applies each in a scratch copy,
rebuilds with `make -k` and appends to `seeded/LOG.jsonl` which theorems failed. Survivors led to the theorems named in the `tightened` field.
