#!/usr/bin/env python3
"""Regenerates /verif/MANIFEST.json.  Checks that every named theorem exists in rocq/theories."""
import json, os, re, glob
root = os.path.dirname(os.path.dirname(os.path.abspath(__file__)))
C = []
def c(prop, status, theorems, note=""):
    C.append(dict(property=prop, status=status, theorems=theorems.split(), note=note))

c("C01", "proved", "C01_grid_coordinates C01_grid_shape")
c("C02", "partial", "C02_nominal_spacing_refuted C02_nominal_spacing_partial",
  "False as stated: dlon/dlat hold the requested resolution, the coordinates are spaced by 360/nlon and 180/(nlat-1). Witness: resolution 7. Proved: they agree iff 360/res resp. 180/res is an integer.")
c("C03", "partial", "C03_shape_from_intervals_partial C03_shape_from_intervals_binary64_refuted",
  "Holds in exact arithmetic; false in binary64: Grid(180/169) has 169 latitudes and 337 longitudes.")
c("C04", "partial", "C04_grid_equality_partial C04_grid_equality_symmetric_refuted C04_grid_equality_transitive_refuted C04_grid_hash_refuted",
  "np.isclose makes == neither symmetric nor transitive, and equal grids can have different hash tuples. Proved: reflexivity, same hash tuple implies equal, equal implies same shape/truncation and close parameters.")
c("C05", "proved", "C05_coriolis C05_circumference")

c("C06", "partial", "C06_cell_areas_partial C06_total_area_refuted",
  "Positivity, symmetry and the exact strip areas hold for all grids. The total equals 4 pi r^2 iff 360/res is an integer, because dlam is the requested spacing; refuted for resolution 7.")
c("C07", "proved", "C07_mean_constant C07_mean_linear C07_mean_bounds C07_mean_of_zonal_means C07_mean_formula")
c("C08", "proved", "C08_mean_axis_synonyms C08_mean_bad_axis C08_mean_bad_shape")
c("C47", "proved", "C47_latitude_slices C47_hemispheres C47_slices_accepted")
c("C48", "proved", "C48_longitude_slices")
c("C49", "proved", "C49_lon_mono")
c("C50", "proved", "C50_extract_field C50_extract_profiles C50_mask C50_extract_many C50_extract_errors")
c("C51", "partial", "C51_single_values C51_single_found C51_only_index_errors C51_malformed C51_repr_partial C51_repr_refuted",
  "repr of an empty region raises IndexError (refuted); everything else holds.")
c("C85", "proved", "C85_repr_map")
c("C86", "partial", "C86_mean_of_extracted_partial C86_mean_of_extracted_refuted",
  "Refuted for a region of the grid's own shape that wraps across 0E: the extracted field is taken for a full field and rotated again. Proved whenever the region's shape differs from the grid's.")

c("C09", "proved", "C09_sptrapz_exact C09_sptrapz_exact_no_domain C09_interpolants_exist")
c("C10", "partial", "C10_surface_partial C10_surface_factor C10_surface_refuted",
  "The result is off by the factor nlon*res/360, because dlam is the requested spacing: exact iff 360/res is an integer, refuted for resolution 7.")
c("C11", "proved", "C11_linear C11_monotone_field C11_monotone_domain C11_split")
c("C12", "partial", "C12_equivalent_latitude_partial C12_number_refuted",
  "Everything holds for array input; the documented number input raises TypeError (item assignment on a float).")
c("C13", "proved", "C13_zonalize_preserves_area")
c("C14", "partial", "C14_symmetric_in_place_partial C14_symmetric_in_place_refuted",
  "Holds iff the quadrature weights are right, i.e. proved when 360/res is an integer; refuted for resolution 7.")
c("C15", "proved", "C15_automatic_levels")
c("C16", "partial", "C16_interpolation_1d_partial C16_interpolation_2d_partial C16_south_pole_data_refuted",
  "Proved for distinct data latitudes: no overshoot, straight lines between neighbouring data, nodes reproduced. Refuted for data given exactly at -90: ignored for 1D data, NaN for 2D data.")
c("C87", "proved", "C87_boxcount_exact C87_step_functions_exist")

c("C17", "partial", "C17_linear_profile C17_linear_field C17_exact_profile_partial C17_exact_field_partial C17_exact_refuted",
  "Linearity holds for all grids; exactness is proved when 180/res is an integer. Refuted for resolution 7: the division uses the requested spacing, so the derivative of the latitude itself is 36/35.")
c("C18", "partial", "C18_accuracy_profile_partial C18_accuracy_field_partial C18_accuracy_refuted",
  "Error bounds with explicit constants (1 for order 2, 17/3 for order 4) when 180/res is an integer; refuted for resolution 7.")
c("C19", "proved", "C19_bad_order C19_small_grid C19_output_shape")

c("C20", "proved", "C20_laplacian C20_poisson_inverts")
c("C21", "partial", "C21_helmholtz_partial C21_mean_refuted",
  "Holds in every coefficient except the global mean: the code sets the mean of the solution to zero also when op_add makes the operator invertible there, so the equation fails for every rhs with non-zero mean.")
c("C22", "proved", "C22_diffusion_step")
c("C24", "proved", "C24_lazy_unobservable C24_values")
c("C25", "partial", "C25_relative_vorticity C25_from_pv C25_from_vorticity C25_from_wind_partial C25_from_wind_refuted C25_gridded_states",
  "Exact transforms assumed. pv and vorticity always reproduce the state; the winds do iff the relative vorticity has zero global mean (refuted otherwise).")
c("C26", "partial", "C26_add_vorticity_field C26_add_vorticity_state C26_add_wind_state_partial C26_add_wind_tuple_replaces C26_add_wind_tuple_refuted",
  "Exact transforms assumed. add_wind with a tuple of fields returns a state with that wind only: the wind of the first operand is dropped (refuted). The other three forms add.")
c("C27", "partial", "C27_refuted", "Refuted for every input: the body refers to undefined names and raises NameError.")
c("C28", "proved", "C28_roundtrip", "Exact transforms assumed; grid passed explicitly.")
c("C29", "proved", "C29_nonnegative C29_values C29_eddy_zero C29_decomposition")

c("C23", "proved", "C23_background_fixed C23_deviation C23_zero_background C23_background_free", "Exact transforms assumed.")
c("C30", "proved", "C30_stops_numbers C30_stops_dates C30_returns_numbers C30_returns_dates C30_past",
  "Numeric times in exact arithmetic and datetimes in microseconds. Whatever run returns stops as claimed (any forcing); it returns if the forcing returns fields.")
c("C31", "partial", "C31_terminates_numbers C31_terminates_dates C31_diverges C31_double_precision_refuted",
  "Proved for datetimes and for numeric times in exact arithmetic. Refuted in double precision: from time 2^53 a step of 1 is absorbed and the loop never ends. A non-positive dt also never ends.")
c("C32", "partial", "C32_saves_partial C32_absolute_times C32_no_saving C32_start_time_refuted",
  "Holds for integrations starting at time 0. For other start times the code saves at absolute multiples of save_every, not at elapsed ones; refuted for a start at 100.")
c("C33", "proved", "C33_numbers C33_double_precision C33_dates")
c("C34", "proved", "C34_mean_conserved C34_every_step", "Exact transforms assumed.")
c("C35", "partial", "C35_motionless_partial C35_diffusion_refuted",
  "Holds if diffusion is switched off or acts on deviations from the planetary vorticity. Refuted with plain diffusion, which damps the planetary vorticity itself and spins up a zonal flow.")
c("C36", "proved", "C36_times C36_filter C36_no_filter C36_straight_lines C36_computational_mode C36_new_state", "Exact transforms assumed for the computational mode.")
c("C37", "partial", "C37_statelist_partial C37_past_refuted", "A plain list instead of a StateList is returned if tend lies before the initial time.")
c("C38", "proved", "C38_same_fields C38_mixing_tend C38_mixing_dt C38_save_every_datetime",
  "Datetimes counted in microseconds, numbers exact. save_every > 0 cannot be combined with datetimes at all (TypeError), so the equivalence is for runs without saving.")
c("C88", "proved", "C88_tendency C88_euler C88_leapfrog", "Exact transforms assumed only for the length of the flux array.")

c("C39", "partial", "C39_pointwise_partial C39_builds C39_numbers_refuted",
  "Expressions of terms evaluate pointwise. Refuted for numbers: they are accepted by + and * but the resulting object raises TypeError when called.")
c("C40", "proved", "C40_switch_numbers C40_switch_dates C40_sequence_numbers C40_sequence_dates C40_product C40_mixing")
c("C41", "proved", "C41_relaxation C41_euler_step",
  "Pointwise for the forcing itself; in an Euler step of the model the deviation of every coefficient shrinks by the factor up to the advective tendency, exactly for the mean. Exact transforms assumed.")
c("C42", "proved", "C42_same_grid C42_interpolation C42_linear", "np.interp modelled for increasing nodes.")
c("C43", "proved", "C43_forcing C43_linear_in_wind C43_flat C43_solid_body_state_free C43_zonal_wind C43_wind_kinds", "Exact transforms assumed; nonzero scale height.")
c("C44", "proved", "C44_cache_unobservable", "Tuple hashes treated as injective; object identities as numbers. Grids that share a cache entry agree in everything the gradient depends on.")
c("C45", "partial", "C45_gaussian C45_distance_partial C45_periodic_refuted",
  "Range and maximum hold. The height depends on the plain difference of longitudes: a function of the angular distance only where that difference is at most 180 degrees; refuted otherwise.")
c("C46", "proved", "C46_sine_mountains")

c("C52", "partial", "C52_statelist_accepts_partial C52_statelist_type_error C52_statelist_assertion_error C52_statelist_no_other_outcome C52_pairwise_equal_grids_refuted",
  "Accepted lists and both exceptions characterised exactly. Pairwise equality of the grids is refuted: only the first grid is compared and Grid.__eq__ is not transitive.")
c("C53", "partial", "C53_indexing C53_slices_partial C53_slice_positions C53_slice_is_no_statelist_refuted C53_concatenation C53_identity C53_associative_partial C53_associative_refuted",
  "Slices select the right states but return a tuple, never a StateList. Addition is associative on pairwise equal grids; in general one order can raise while the other succeeds.")
c("C54", "partial", "C54_attribute_items C54_method_items C54_container_partial C54_empty_container_refuted C54_collection_succeeds C54_unequal_shapes C54_grid_attribute",
  "Element-wise access holds for all lengths. For an empty list the container is an array whatever the attribute is. The grid attribute is shared instead of broadcast.")
c("C55", "proved", "C55_run_each C55_run_raises")

c("C76", "proved", "C76_wind_profile C76_pv_profile C76_rejected C76_both_or_neither")
c("C77", "partial", "C77_solid_body_rotation C77_gaussian_jet C77_gaussian_jet_zero_width_refuted C77_held_1985",
  "About the wind fields the states are constructed from, in exact arithmetic. A jet of zero width centred on a grid latitude is 0/0 there (refuted); any other width satisfies the claim.")
c("C78", "partial", "C78_same_instant C78_unit C78_displayed_partial C78_dataset_time_refuted",
  "Holds for numbers and datetimes. Numeric times read by from_dataset are zero-dimensional arrays, for which formatting raises AttributeError.")
c("C79", "proved", "C79_faithful C79_characters")
c("C80", "partial", "C80_rotation C80_labels C80_centered_partial C80_centered_refuted",
  "Rotation and labels hold always. The middle column is the closest one unless the centre lies in the last half gridbox before the zero meridian, where distances are not taken on the circle (refuted there).")
c("C81", "proved", "C81_levels C81_override C81_no_data", "Override assumed non-negative, as documented.")
c("C82", "partial", "C82_spacing C82_zero_iff C82_zero_partial C82_default_bounds C82_zero_refuted",
  "Equal spacing holds. 0 is ticked iff the step divides twice the lowest integer, hence for ranges up to 20 and the default bounds; refuted for (-5, 20) and for a range ending at 0.")
c("C83", "partial", "C83_same_points C83_row_bounds C83_nonempty_partial C83_nonempty_refuted",
  "A point is kept for the shape of every Grid; refuted for tall and narrow arrays.")
c("C84", "proved", "C84_zonal C84_meridional C84_rejected")
c("C62", "proved", "C62_window C62_weights C62_returns",
  "For the windows boxcar, triang and hann. A negative width raises ValueError.")
c("C63", "proved", "C63_by_name C63_rows C63_constants C63_mean C63_rotation C63_linear C63_range C63_rejected",
  "scipy.ndimage.convolve with mode wrap is modelled; windows are not empty.")
c("C64", "proved", "C64_by_name C64_constants C64_range C64_columns C64_reflection C64_linear",
  "scipy.ndimage.convolve with mode reflect is modelled; windows are not empty.")
c("C65", "proved", "C65_value C65_range C65_constants C65_profile C65_profile_size",
  "Assumes a SciPy version which provides scipy.signal.hann.")
c("C66", "partial", "C66_inside C66_outside C66_spectrum_partial C66_coefficients_determine C66_linear C66_idempotent C66_all_wavenumbers C66_split C66_odd_refuted",
  "Holds for all even numbers of longitudes. For odd numbers, e.g. Grid(72), the output has one column less than the field (refuted).")
c("C67", "partial", "C67_inside_partial C67_outside_partial C67_bound_partial C67_odd_refuted",
  "Holds for all even numbers of longitudes. For odd numbers the output has one column less than the field (refuted).")
c("C68", "partial", "C68_offset_partial C68_from_zero_partial C68_wave_refuted C68_empty_range",
  "The result is relative to the lower end of the range: correct for ranges starting at 0, otherwise too small by exactly the lower end (refuted for the default range).")
c("C69", "partial", "C69_defined C69_integral C69_nonnegative C69_interpolated_partial C69_refuted",
  "Non-negative on all contours and after interpolation, except for NaN at the south pole, which appears if -90 is an equivalent latitude (refuted with constant PV). Fields with all longitudes of the grid.")
c("C70", "partial", "C70_contours C70_interpolated_partial C70_refuted",
  "Holds if 360/resolution is an integer (all levels on contours, automatic levels after interpolation); refuted for every other grid.")
c("C71", "partial", "C71_boxcount C71_sptrapz_partial C71_levels_partial C71_distinct_partial C71_refuted",
  "Holds for boxcount, and for sptrapz with non-constant PV if 360/resolution is an integer, or if the equivalent latitudes are distinct; refuted with constant PV (NaN at the south pole).")
c("C72", "proved", "C72_squared C72_wind_only C72_variants C72_errors C72_not_nan",
  "For arrays of the grid's shape, orders 2 and 4 and thresholds >= 0; the variants agree for all inputs.")
c("C73", "partial", "C73_ordered_partial C73_refuted",
  "Holds for all NaN-free profiles which do not jump from minus infinity to a finite value above k; refuted with such a wind profile (a boundary is NaN).")
c("C74", "partial", "C74_contains_partial C74_crossings_partial C74_same_variants C74_infinite_refuted C74_crossings_refuted",
  "Holds for finite profiles; with infinite values latitudes below k may lie on a boundary (refuted). Crossings are at the interpolated latitude if 180/resolution is an integer (refuted for resolution 7). Profiles as in C73.")
c("C75", "partial", "C75_finite_iff_partial C75_refuted",
  "Boundaries are finite iff the profile does not jump from minus infinity to a finite value above k; refuted with a wind profile for which stationary_wavenumber produces such a jump.")

c("C56", "partial", "C56_grid_partial C56_offset_refuted C56_poles_refuted C56_float_refuted",
  "Numbers of points always agree; spacing agrees to 0.02 degrees for up to 100000 longitudes (latitudes: even number of longitudes). Refuted: the first longitude and latitude are not compared with the grid (180W or 60N are accepted and the fields displaced), with an odd number of longitudes the latitudes of the grid differ. In binary64 a dataset with 338 regular longitudes gets a grid with 337.")
c("C57", "partial", "C57_missing_coordinates C57_irregular_longitudes C57_irregular_latitudes C57_not_a_coordinate C57_accepted_partial C57_extent_refuted",
  "Refuted for the extent: latitudes of 72N..72S with 5 longitudes, or 60N..120S with 4, are accepted. Everything else named in the claim raises.")
c("C58", "proved", "C58_flatten C58_accepts C58_repeated_labels",
  "For returned states. C58_accepts says when states are returned: labels along the extra dimensions have to be different, C58_repeated_labels shows that repeated labels are an error.")
c("C59", "proved", "C59_names C59_source C59_nothing C59_wrong_override")
c("C60", "partial", "C60_fields C60_lat_is_not_lon C60_coordinates C60_no_states C60_unsupported_partial C60_unsupported_refuted",
  "Refuted in one respect: a 2D field of another shape is not NotImplementedError but the ValueError of xarray.")
c("C61", "partial", "C61_roundtrip_wind_partial C61_roundtrip_pv_partial C61_same_grid C61_equal_grid C61_equal_times_refuted C61_mean_vorticity_refuted C61_odd_longitudes_refuted C61_empty_refuted",
  "Proved for different times, even number of longitudes and (wind) no global-mean vorticity, exact transforms assumed; refuted without any of these conditions and for the empty list.")

c("C89","proved","C89_wind_inverts C89_gridded_or_spectral","Assumes exact transforms (exact_on) and exact vector calculus of pyspharm (calculus_on, Spec_Calculus.v); both shown to be satisfiable.")
c("C90","proved","C90_laplace C90_poisson C90_helmholtz C90_diffusion","Same assumptions as C89. The mean of the Helmholtz equation is excluded in the statement (refuted in C21).")
c("C91","proved","C91_gradient C91_constant","Same assumptions as C89; curl grad = 0 and div grad = Laplacian of pyspharm are assumed for coefficients, the theorem carries them over to the gridded methods.")
c("C92","proved","C92_accepted C92_domain C92_rank","")
c("C93","partial","C93_dominant_partial C93_range C93_resolution C93_covers_partial C93_long_waves_refuted C93_odd_refuted C93_zero",
  "pywt.cwt is a parameter, assumed to keep the length of the signal. Proved for even numbers of longitudes; refuted for odd numbers (a longitude is lost, smoothing raises). All wavenumbers 1 to 20 are met with 60 to 192 longitudes; refuted on finer grids, where long waves are out of reach for every field (e.g. wavenumbers up to 3 with 0.5 degrees).")
c("C94","proved","C94_profile C94_constant C94_outside","C94_outside: a level above the maximum ends up at the north pole (the range condition of the statement is needed).")
c("C95","proved","C95_one_argument C95_attributes","State(grid, time) without PV is reported at construction; the code fails when the PV is first used. Gridded PV: exact transforms assumed.")
c("C96","partial","C96_summary_maps C96_wave_activity_maps C96_rwp_maps C96_profiles C96_wave_activity_profiles C96_vectors_partial C96_default_center C96_vectors_refuted",
  "Proved for contour plots and profiles. Wind vectors: proved if the longitude labels are not shifted, which holds for the default centre and even numbers of longitudes; refuted otherwise (summary does not roll the vectors, with center_lon=0 they are displaced by 180 degrees).")
c("C97","partial","C97_summary C97_wave_activity_partial C97_wave_activity_refuted C97_rwp_partial C97_rwp_refuted",
  "summary: proved, and negative ranges are ValueError. wave_activity: a figure for every state with non-constant PV, refuted (ValueError) for constant PV. rwp_diagnostics: refuted for zonally symmetric flow (ValueError).")
c("C98","proved","C98_summary C98_wave_activity C98_rwp_diagnostics C98_waveguides","")
c("C99","proved","C99_lines C99_drawn","")
c("C100","partial","C100_characters C100_shown C100_equation_partial C100_equation_refuted","Proved for even diffusion orders (the default is 2); refuted for odd orders: the representation shows the wrong sign, e.g. -κ∇²q for order 1 although the model integrates +κ∇²q.")
c("C101","proved","C101_operators C101_unambiguous C101_terms_needed","C101_terms_needed: the condition on the texts cannot be dropped.")
c("C102","proved","C102_identifies","str of floats is a parameter.")
c("C103","partial","C103_filtered_partial C103_zonal_mean C103_window_refuted","Mean, range, sign and window shape proved. Window width refuted: because of the offset in dominant_wavenumber_fourier (C68) the window belongs to the wavenumber 2(k-1) instead of 2k.")
c("C104","partial","C104_waves C104_bound C104_odd_refuted","Proved for even numbers of longitudes; refuted for odd numbers (the envelope lacks a longitude).")
c("C105","partial","C105_new_grid_partial C105_odd_refuted C105_planet_refuted","Coordinates and PV recovered for even numbers of longitudes, the grid exactly for default planet and truncation and resolutions that divide 180; AssertionError for odd numbers of longitudes; radius and rotation rate are lost.")
c("C106","proved","C106_longitudes C106_latitudes C106_model C106_exact C106_intervals C106_rounded_up C106_sign C106_undefined","Binary64 semantics of the standard library (SpecFloat), connected with real arithmetic through Flocq. C106_rounded_up shows that the integer above the quotient does occur; C03 has the witness for one less.")
c("C107","proved","C107_exact C107_terminates","Bisimulation of the binary64 and the exact-time model; the fields are exact reals in both.")
c("C108","proved","C108_drift C108_step C108_terminates C108_final_time C108_constant_step_refuted","Clock in binary64, fields in exact reals. C108_constant_step_refuted: the steps are not all of length dt (dt=0.1: 0.10000000000000003 in the third step).")
c("C109","proved","C109_falwa C109_fawa C109_zonalize C109_quad C109_rotation","In exact arithmetic.")
c("C110","proved","C110_falwa C110_fawa C110_zonalize","In exact arithmetic; prescribed contour levels are converted along with the field.")
c("C111","proved","C111_rotation C111_reflection C111_fields C111_stays_zonal C111_stays_symmetric","For transforms with these symmetries (exact in exact arithmetic, met by the degree-1 transforms).")
c("C112","proved","C112_steady C112_no_northward_wind C112_initial_states","For exact transforms with rotational and east-west symmetry.")
c("C113","proved","C113_rotated_forcing C113_reflected_forcing C113_rotated_run C113_reflected_run C113_repeats C113_sine_mountains C113_equatorial_mountains C113_counterparts","For transforms and gradients with these symmetries (met by the degree-1 transforms); scale height not 0.")
c("C114","proved","C114_contours C114_zonalize C114_falwa_contours C114_falwa C114_fawa C114_inner C114_state C114_ties_needed C114_resolution_needed","C114_ties_needed and C114_resolution_needed: the conditions on contours and resolution cannot be dropped (a contour with an area of its own is always counted northward).")
c("C115","proved","C115_summary C115_vectors C115_wave_activity C115_rwp_diagnostics","")
c("C116","proved","C116_mean C116_zonal C116_run C116_threshold C116_threshold_mean C116_exception","")
c("C117","proved","C117_background C117_uniform","")
c("C118","partial","C118_rotation C118_reflection C118_state C118_waveguides_partial C118_state_waveguides_partial C118_waveguides_refuted C118_ties_refuted",
  "Rotation and the reflected wavenumber hold without restriction. Reflected waveguides: proved for evenly spaced latitudes, k not a value of the profile and no jump between minus infinity and a finite value above k; false for a wind profile with such a jump and for a wavenumber equal to k at a pole (refuted with witnesses).")
c("C119","proved","C119_mean C119_other","")
c("C120","partial","C120_state C120_no_grid C120_sensitivity_partial C120_ks_refuted","False for the stationary wavenumber (C120_ks_refuted): from a State it uses the State's PV, from an array a PV of differences of the wind. C120_sensitivity_partial bounds the difference of the squared wavenumbers by that of the two PV profiles. A State together with a grid is not modelled.")
c("C121","partial","C121_dominant C121_restrict_partial C121_envelope_partial C121_filter C121_state C121_odd_refuted","Restriction and envelope need an even number of longitudes; otherwise they return one longitude less and do not turn with the field (C121_odd_refuted).")
c("C122","partial","C122_accuracy_partial C122_solid_body_partial C122_sign_partial C122_accuracy_refuted","For resolutions that divide 180; for other resolutions the nominal spacing is not the actual one and the wavenumber is off by a fixed factor (C122_accuracy_refuted: 36/35 for resolution 7).")
c("C123","partial","C123_restrict C123_range_partial C123_envelope C123_dominant C123_no_wavenumber C123_length C123_natural C123_range_refuted C123_number_refuted","Proved for ranges that start at 0 or above and end at -1 or above. Other negative numbers count from the end (C123_restrict, C123_envelope, C123_dominant say which wavenumbers remain; C123_range_refuted has the witnesses). Numbers that are not integers raise a TypeError although the documentation admits them (C123_number_refuted). Restriction and envelope for even numbers of longitudes.")
c("C124","proved","C124_spectrum C124_mean C124_wave C124_envelope","In exact arithmetic.")
c("C125","proved","C125_factor C125_polynomial_profile C125_polynomial_field C125_accuracy_profile C125_accuracy_field C125_wavenumber C125_error","In exact arithmetic; what holds instead of C17, C18 and C122 for resolutions that do not divide 180.")
c("C126","proved","C126_latitudes C126_longitudes C126_exact_latitudes C126_exact_longitudes C126_symmetry_refuted","Rounding of np.linspace as computed by NumPy; trigonometric functions of the coordinates stay exact.")
c("C127","proved","C127_latitudes C127_longitudes C127_model C127_tolerance_latitudes C127_tolerance_longitudes C127_poles C127_equator C127_inclusive_refuted","Ranges and hemispheres; the selection of a single coordinate with np.isclose is in exact arithmetic only (C51).")
c("C128","proved","C128_total C128_power C128_pythagoras C128_closest C128_envelope C128_scale C128_dominant","In exact arithmetic; odd numbers of longitudes: C124.")
c("C129","proved","C129_eigenvalues C129_increasing C129_inverse C129_exact_refuted","NumPy's complex64 arithmetic with imaginary parts 0; signs of zeros not followed.")
c("C130","proved","C130_accuracy C130_low_orders C130_order4 C130_order5 C130_damping_refuted","NumPy's complex power by products and Smith's quotient as assumed in DESIGN.md; dt*coeff beyond single precision not covered.")
c("C131","proved","C131_latitudes C131_longitudes C131_found C131_own C131_not_finite C131_fine_refuted C131_wrap_refuted","np.isclose in binary64; numbers above 2^52 in magnitude not covered.")
c("C132","proved","C132_form C132_accuracy C132_run C132_steady C132_damping C132_stable C132_unstable","Assumes transforms without aliasing for the products of the harmonics involved (products_on, Spec_Waves.v); Spec_Simpson.v and, on every grid, Spec_Harmonics.v (C133) give transforms that meet the assumption.")
c("C133","proved","C133_points C133_laplacian C133_gradient C133_wind C133_transforms C133_resolved C133_symmetries C133_products C133_waves C133_all_refuted","The transforms are those of Spec_Harmonics.v, not a model of pyspharm: they show that the assumptions of the other theorems can be met on every grid. C133_all_refuted shows the last sentence: one coefficient is invisible on the grid.")
c("C134","proved","C134_tendency C134_euler C134_leapfrog C134_steps C134_momentum C134_energy_refuted","For the transforms of Spec_Harmonics.v (C133); means over the sphere with the weights that are exact for polynomials in the sine of latitude, not with Grid.mean. C134_energy_refuted shows the last sentence.")
c("C135","proved","C135_filters C135_floats C135_masks C135_mean_refuted C135_interpolation C135_poles C135_zonalize C135_zonalize_refuted","The casts of scipy.ndimage.convolve and np.pad to the data type of their input; all other arithmetic is exact. C135_mean_refuted and C135_zonalize_refuted: what C63 and C94 say for floats fails for integers.")
c("C136","proved","C136_accepted C136_exact C136_small C136_doubled C136_kept_refuted C136_odd","Coordinates of doubles as made by np.linspace (C126), compared with np.isclose in double precision; the fields of the dataset and coordinates of other types are not part of the model in double precision. C136_kept_refuted: the round trip from a grid to a dataset and back loses a longitude and a latitude.")
c("C137","proved","C137_enstrophy C137_energy C137_absolute C137_rest_refuted C137_euler C137_momentum","Transforms are those of C133 with harmonics up to degree D (2D below the numbers of latitudes and longitudes); means over the sphere as in C134. C137_rest_refuted: without background, diffusion can increase the energy.")
c("C138","proved","C138_growth C138_attributes C138_forcing C138_run C138_careful C138_new C138_kept C138_pv_argument C138_pv_spectral_argument C138_written_pv C138_written_refuted","pyspharm and the diagnostics are taken to return new arrays and to leave their arguments alone, and so are functions of the user in forcing expressions; a forcing program of any kind may be given to the model if it satisfies forcing_program. The arrays of a Grid and diffusion_bg are constants. C138_written_refuted: writing into arrays that attributes returned can change other attributes.")
c("C139","proved","C139_derivative_field C139_derivative_profile C139_derivative_small C139_derivative_unsigned C139_quad C139_quad_everywhere C139_quad_half C139_quad_refuted C139_levels C139_levels_signed C139_integer_levels C139_integer_levels_unsigned","Derivatives of unsigned integers other than the order-2 derivative of a profile are not modelled, they depend on the version of NumPy; integer levels are taken to fit into the type of the field; rounding of large integers to floats is not modelled. C139_quad_refuted: the integral of unsigned integers is not that of the same numbers as floats.")
c("C140","proved","C140_derivative C140_poisson C140_area C140_trapz C140_eqlat C140_region C140_restrict C140_ks2","Values of intermediate expressions have no addresses; reading or writing an array is one step. Fields have the latitudes of the grid (quad_meridional, :524 on), spectra the number of coefficients of the grid; arrays with more than two dimensions are left out. Writes inside pyspharm and the other libraries are not modelled.")
c("C141","proved","C141_gaussian_accepts C141_sine_accepts C141_gaussian_errors C141_sine_errors C141_gaussian C141_sine","Arguments are passed by name; arrays as arguments and standard deviations of zero are left out. What the orography method does with attributes that are not numbers is not modelled.")
c("C142","proved","C142_interpolation C142_superposition C142_sum_of_terms C142_offset C142_scale","Real arithmetic, scale height not zero; transforms satisfy exact_on (instances: d1_family, harmonics).")
c("C143","partial","C143_budget C143_constant_coriolis C143_zonal_wind C143_integration_partial C143_integration_refuted","Proved for the winds zon and sbr and for a constant Coriolis parameter; refuted for the actual wind with the Coriolis parameter of the grid (the default): on every rotating planet there are a relief and a flow with a mean forcing, and every Euler step from there changes the global mean of PV. Transforms are sums of spherical harmonics (harmonics D) with twice the degree resolved by the grid; real arithmetic.")
c("C144","partial","C144_budget C144_zonal_wind C144_integration_partial C144_integration_refuted","Budget proved for every forcing; conservation proved for the winds zon and sbr; refuted for the actual wind: for every constant non-zero Coriolis parameter there are a relief and a flow on which the mountains exert a torque (though no mean source of PV), and every Euler step from there changes the angular momentum. Without diffusion; transforms are sums of spherical harmonics (harmonics D) with twice the degree resolved by the grid; real arithmetic.")
c("C145","proved","C145_dates C145_stops C145_terminates C145_switch C145_mixing C145_save_every","timedelta and datetime are integers of microseconds without bounds (OverflowError not modelled).")
c("C146","proved","C146_momentum C146_threshold C146_exception","Transforms are sums of spherical harmonics (harmonics D) with twice the degree resolved by the grid; real arithmetic.")
c("C147","proved","C147_before C147_after C147_dates C147_elapsed","Term returns an array with the shape of the grid in every state; transforms linear (exact_on); real arithmetic, where 0 times a number is 0 (not for infinite or NaN values of the term).")
if __name__ == "__main__":
    names = set()
    for f in glob.glob(os.path.join(root, "rocq/theories/Props_*.v")):
        names |= set(re.findall(r"^Theorem\s+([A-Za-z0-9_']+)", open(f).read(), re.M))
    used = set(t for e in C for t in e["theorems"])
    for t in sorted(used - names): print("MISSING theorem", t)
    for t in sorted(names - used): print("unused theorem", t)
    ids = [json.loads(l)["id"] for l in open(os.path.join(root, "properties.jsonl"))]
    done = set(e["property"] for e in C)
    print("unclaimed:", " ".join(i for i in ids if i not in done))
    json.dump({"claims": C}, open(os.path.join(root, "MANIFEST.json"), "w"), indent=1)
