{
 "claims": [
  {
   "property": "C01",
   "status": "proved",
   "theorems": [
    "C01_fft_pad_shape"
   ],
   "note": "any rank, any mix of pad/crop/None; modes other than constant need non-empty axes (numpy rule)"
  },
  {
   "property": "C02",
   "status": "proved",
   "theorems": [
    "C02_fft_pad_content",
    "C02_fft_pad_alignment",
    "C02_fft_pad_origin"
   ],
   "note": "rigid motion, fill, and iff-parity statement for the fftshift origin"
  },
  {
   "property": "C03",
   "status": "proved",
   "theorems": [
    "C03_pad_then_crop"
   ],
   "note": "any border mode"
  },
  {
   "property": "C04",
   "status": "proved",
   "theorems": [
    "C04_newshape",
    "C04_newshape_none",
    "C04_newshape_single"
   ],
   "note": "None / int / iterable / short / long / single / float cases"
  },
  {
   "property": "C05",
   "status": "proved",
   "theorems": [
    "C05_slice_maker",
    "C05_slice_maker_errors",
    "C05_slice_maker_scalar"
   ],
   "note": "exact rationals for the float centres and widths"
  },
  {
   "property": "C06",
   "status": "proved",
   "theorems": [
    "C06_round_trip",
    "C06_even_axes_identity",
    "C06_odd_axis_refuted",
    "C06_other_round_trip",
    "C06_even_axes_other",
    "C06_ifft_sum"
   ],
   "note": "exact reals; any rank and axes; complete characterisation of the odd-axis defect with a witness"
  },
  {
   "property": "C07",
   "status": "proved",
   "theorems": [
    "C07_linear",
    "C07_centred_transform",
    "C07_dc",
    "C07_energy",
    "C07_hermitian",
    "C07_bounded"
   ],
   "note": "exact real/complex arithmetic"
  },
  {
   "property": "C08",
   "status": "proved",
   "theorems": [
    "C08_cart2pol",
    "C08_unique"
   ],
   "note": "exact reals"
  },
  {
   "property": "C09",
   "status": "proved",
   "theorems": [
    "C09_numeric_property",
    "C09_reads_back",
    "C09_psf_attributes"
   ],
   "note": "any object type, backing attribute and hook; finite floats are exact rationals"
  },
  {
   "property": "C10",
   "status": "proved",
   "theorems": [
    "C10_center_data",
    "C10_center_data_bijection",
    "C10_center_data_empty"
   ],
   "note": "arrays are values in the model, so non-mutation of the input is by the semantics (data.copy() at utils.py:231 is modelled by value)"
  },
  {
   "property": "C11",
   "status": "proved",
   "theorems": [
    "C11_remove_bg",
    "C11_remove_bg_rejects"
   ],
   "note": "exact rationals stand for float arithmetic"
  },
  {
   "property": "C12",
   "status": "proved",
   "theorems": [
    "C12_psqrt"
   ],
   "note": "exact reals"
  },
  {
   "property": "C13",
   "status": "proved",
   "theorems": [
    "C13_prep_pad",
    "C13_prep_crop",
    "C13_prep_negative_size",
    "C13_prep_clip_refuted"
   ],
   "note": "complete characterisation, including the unclipped crop branch"
  },
  {
   "property": "C14",
   "status": "proved",
   "theorems": [
    "C14_block_sums",
    "C14_block_means",
    "C14_blocks_partition",
    "C14_indivisible_refused",
    "C14_bin_size",
    "C14_bad_bins",
    "C14_wrong_number_of_bins",
    "C14_refusals"
   ],
   "note": "any rank; reshape/sum/mean axis by axis as in the code; exact reals"
  },
  {
   "property": "C15",
   "status": "proved",
   "theorems": [
    "C15_profile",
    "C15_every_pixel_in_one_bin",
    "C15_total_conserved",
    "C15_between_min_and_max",
    "C15_constant_data",
    "C15_complex",
    "C15_bad_centre"
   ],
   "note": "any rank; exact reals; numpy < 1.24 assumed (np.int)"
  },
  {
   "property": "C16",
   "status": "proved",
   "theorems": [
    "C16_no_empty_bins",
    "C16_default_centre",
    "C16_off_grid_centre_refuted"
   ],
   "note": "plus witness that an off-grid centre can leave an empty (NaN) bin"
  },
  {
   "property": "C17",
   "status": "proved",
   "theorems": [
    "C17_noll_bijection",
    "C17_noll_onto",
    "C17_noll_order",
    "C17_noll_closed_form",
    "C17_noll_lists",
    "C17_float_formula_exact"
   ],
   "note": "complete table by computation, floating-point recovery of n, m via Flocq for all rows up to 2^20"
  },
  {
   "property": "C18",
   "status": "proved",
   "theorems": [
    "C18_noll2degrees_errors",
    "C18_noll2degrees_domain",
    "C18_degrees2noll_behaviour",
    "C18_degrees2noll_vectors",
    "C18_degrees2noll_dtype",
    "C18_illegal_pairs_rejected_refuted",
    "C18_degrees2noll_round_trip"
   ],
   "note": "full behaviour of both conversions; missing |m|<=n check refuted with witness and characterised"
  },
  {
   "property": "C19",
   "status": "proved",
   "theorems": [
    "C19_radial_is_textbook",
    "C19_rim",
    "C19_centre",
    "C19_at_centre"
   ],
   "note": "eval_jacobi modelled by its terminating hypergeometric series (scipy's documented formula), exact reals"
  },
  {
   "property": "C20",
   "status": "proved",
   "theorems": [
    "C20_outside_disk",
    "C20_odd_difference",
    "C20_formula"
   ],
   "note": "exact reals"
  },
  {
   "property": "C21",
   "status": "proved",
   "theorems": [
    "C21_orthonormal"
   ],
   "note": "Riemann integrals (Coquelicot) in polar coordinates, all legal degrees of unbounded order"
  },
  {
   "property": "C22",
   "status": "proved",
   "theorems": [
    "C22_rotation",
    "C22_parity",
    "C22_period",
    "C22_reflection"
   ],
   "note": "exact reals"
  },
  {
   "property": "C23",
   "status": "proved",
   "theorems": [
    "C23_success_iff",
    "C23_stretched_result",
    "C23_result",
    "C23_forms_agree",
    "C23_scalar_forms_agree",
    "C23_errors"
   ],
   "note": "success iff, shape/values, call forms agree, exception classes"
  },
  {
   "property": "C24",
   "status": "proved",
   "theorems": [
    "C24_reads_are_fresh",
    "C24_same_as_new_object",
    "C24_reads_do_not_interfere"
   ],
   "note": "for every array engine (the numerics are an arbitrary parameter), every history including failed operations"
  },
  {
   "property": "C25",
   "status": "proved",
   "theorems": [
    "C25_rejected_assignment_is_atomic",
    "C25_rejected_assignments_can_be_dropped",
    "C25_failed_apply_pupil_discards"
   ],
   "note": "also: a failing apply_pupil is shown NOT to be atomic"
  },
  {
   "property": "C26",
   "status": "proved",
   "theorems": [
    "C26_parameters_valid",
    "C26_res_limit",
    "C26_sheppard_zres_limit",
    "C26_limits_are_not_invariant_refuted",
    "C26_constructed_within_limits"
   ],
   "note": "exact acceptance rule of res and zres; refuted as invariants by witness"
  },
  {
   "property": "C27",
   "status": "proved",
   "theorems": [
    "C27_zrange_history",
    "C27_generated_range",
    "C27_focus_and_extent"
   ],
   "note": "history characterisation plus shape of the generated range"
  },
  {
   "property": "C28",
   "status": "proved",
   "theorems": [
    "C28_pupil_stays",
    "C28_change_discards_pupil"
   ],
   "note": "keeps / discards, for every history"
  },
  {
   "property": "C29",
   "status": "proved",
   "theorems": [
    "C29_objects_are_independent",
    "C29_given_model_untouched",
    "C29_returned_model",
    "C29_shares_only_zrange",
    "C29_generated_psf",
    "C29_caller_writes",
    "C29_zrange_argument_is_aliased",
    "C29_independent_under_writes_refuted"
   ],
   "note": "heap model with references: every program over any number of objects; the shared z range array is the one exception for in-place writes by the caller (refuted + exact characterisation)"
  },
  {
   "property": "C30",
   "status": "proved",
   "theorems": [
    "C30_shape_sign",
    "C30_computes",
    "C30_sheppard_shape_sign"
   ],
   "note": "both models; shape, component count, sign, sum of squared magnitudes; which calls succeed"
  },
  {
   "property": "C31",
   "status": "proved",
   "theorems": [
    "C31_plane_energy",
    "C31_same_in_every_plane",
    "C31_light"
   ],
   "note": "exact reals, any pupil on the grid, any vec_corr/condition"
  },
  {
   "property": "C32",
   "status": "proved",
   "theorems": [
    "C32_total_is_sum",
    "C32_total_energy"
   ],
   "note": ""
  },
  {
   "property": "C33",
   "status": "proved",
   "theorems": [
    "C33_strehl",
    "C33_ideal_maximum"
   ],
   "note": "scalar model (vec_corr none)"
  },
  {
   "property": "C34",
   "status": "proved",
   "theorems": [
    "C34_axial_mirror",
    "C34_lateral_symmetry"
   ],
   "note": "vectorial models need res below the Abbe limit (as checked by the res setter)"
  },
  {
   "property": "C35",
   "status": "proved",
   "theorems": [
    "C35_otf_of_intensity",
    "C35_hanser"
   ],
   "note": "stated for any non-negative 3-d intensity and instantiated for HanserPSF"
  },
  {
   "property": "C36",
   "status": "proved",
   "theorems": [
    "C36_autocorrelation_support",
    "C36_band_limit"
   ],
   "note": "autocorrelation support and radius bound; the sampling assumption of the first version of the property turned out to be unnecessary"
  },
  {
   "property": "C37",
   "status": "proved",
   "theorems": [
    "C37_factors_agree",
    "C37_squares_sum_to_two",
    "C37_otf_arrays"
   ],
   "note": "factor by factor and on the OTFa arrays"
  },
  {
   "property": "C38",
   "status": "proved",
   "theorems": [
    "C38_none_ignores_condition",
    "C38_nonfinite_iff",
    "C38_single_shell_finite",
    "C38_dual_nan",
    "C38_dual_total_refuted"
   ],
   "note": "complete iff characterisation of non-finite values, element-wise and for the intensity; None = non-finite number"
  },
  {
   "property": "C39",
   "status": "proved",
   "theorems": [
    "C39_rejection",
    "C39_single_sample",
    "C39_hanser_accepts",
    "C39_support",
    "C39_inside",
    "C39_zero_one"
   ],
   "note": "rejection, shell support (zero outside, one well inside), single-sample IndexError; thickness between the two grid pitches"
  },
  {
   "property": "C40",
   "status": "proved",
   "theorems": [
    "C40_named_coefficients",
    "C40_names_are_the_first_15_modes",
    "C40_one_name"
   ],
   "note": "names, coefficients, KeyError"
  },
  {
   "property": "C41",
   "status": "proved",
   "theorems": [
    "C41_dictionary",
    "C41_order_irrelevant",
    "C41_permutation",
    "C41_zero_is_ideal",
    "C41_aberrated_model",
    "C41_unknown_name",
    "C41_sheppard",
    "C41_call_order"
   ],
   "note": "dictionary totals, order, zero magnitudes"
  },
  {
   "property": "C42",
   "status": "proved",
   "theorems": [
    "C42_aberrated_model",
    "C42_earlier_aberration_is_discarded",
    "C42_both_none_keeps"
   ],
   "note": "on the heap model with the numeric engine"
  },
  {
   "property": "C43",
   "status": "proved",
   "theorems": [
    "C43_piston",
    "C43_tip_tilt"
   ],
   "note": "piston and whole-pixel tip/tilt"
  },
  {
   "property": "C44",
   "status": "proved",
   "theorems": [
    "C44_nothing_given",
    "C44_outcome"
   ],
   "note": "complete case analysis of outcomes; model class check is in C29_returned_model"
  },
  {
   "property": "C45",
   "status": "proved",
   "theorems": [
    "C45_bookkeeping",
    "C45_allowance",
    "C45_prefix",
    "C45_refused",
    "C45_records"
   ],
   "note": "any unwrapping routine that changes phases by multiples of 2 pi; exact reals"
  },
  {
   "property": "C46",
   "status": "proved",
   "theorems": [
    "C46_error_never_grows"
   ],
   "note": "both phase_only settings; exact reals"
  },
  {
   "property": "C47",
   "status": "proved",
   "theorems": [
    "C47_support"
   ],
   "note": ""
  },
  {
   "property": "C48",
   "status": "proved",
   "theorems": [
    "C48_model_and_pupil"
   ],
   "note": "iff the run ended on a tolerance"
  },
  {
   "property": "C49",
   "status": "proved",
   "theorems": [
    "C49_callers_dictionary",
    "C49_model_parameters",
    "C49_plane_mismatch"
   ],
   "note": "including the in-place change of the caller's dictionary and the plane-count mismatch"
  },
  {
   "property": "C50",
   "status": "proved",
   "theorems": [
    "C50_perfect_data"
   ],
   "note": ""
  },
  {
   "property": "C51",
   "status": "proved",
   "theorems": [
    "C51_least_squares",
    "C51_exact_recovery",
    "C51_refused"
   ],
   "note": "any solver meeting the least-squares specification"
  },
  {
   "property": "C52",
   "status": "proved",
   "theorems": [
    "C52_reconstruction",
    "C52_complementary_slices",
    "C52_linear",
    "C52_default_ignores_four",
    "C52_default_uses_the_rest"
   ],
   "note": "all slices"
  },
  {
   "property": "C53",
   "status": "proved",
   "theorems": [
    "C53_size",
    "C53_centre",
    "C53_planes"
   ],
   "note": "size option for both PSF generators, planes with zsize/zrange"
  },
  {
   "property": "C54",
   "status": "proved",
   "theorems": [
    "C54_refused",
    "C54_model",
    "C54_geometry"
   ],
   "note": "refusals, model arguments and geometry of the model"
  },
  {
   "property": "C55",
   "status": "proved",
   "theorems": [
    "C55_any_factor",
    "C55_psf",
    "C55_widefield",
    "C55_hanser"
   ],
   "note": "binning, centring and normalisation; C55_widefield for microscopes as constructed"
  },
  {
   "property": "C56",
   "status": "proved",
   "theorems": [
    "C56_otf",
    "C56_nonnegative"
   ],
   "note": "OTF of a unit-sum PSF; sign of the PSF for the non-SIM kinds over all histories"
  },
  {
   "property": "C57",
   "status": "proved",
   "theorems": [
    "C57_snapshot",
    "C57_recomputed",
    "C57_stale",
    "C57_models_untouched",
    "C57_confocal_wl_exc"
   ],
   "note": "what is cached and when it is recomputed; assignments on models are not noticed"
  },
  {
   "property": "C58",
   "status": "proved",
   "theorems": [
    "C58_disk_kernel",
    "C58_sum"
   ],
   "note": "every positive radius; counts the points of the disk independently of the kernel"
  },
  {
   "property": "C59",
   "status": "proved",
   "theorems": [
    "C59_confocal",
    "C59_closed_pinhole",
    "C59_hanser"
   ],
   "note": "value of every voxel, and as constructed on the Hanser model with light proved positive"
  },
  {
   "property": "C60",
   "status": "proved",
   "theorems": [
    "C60_sim_2d",
    "C60_sim_3d",
    "C60_coherent",
    "C60_hanser",
    "C60_centre",
    "C60_signs",
    "C60_class_switches",
    "C60_classes"
   ],
   "note": "Fully characterised for built Hanser SIM microscopes (C60_hanser) and pattern formulas for any model PSF. Findings: on odd grids the pattern is centred one pixel off the optical axis ((n+1)//2); coherent=True with no orientation raises UnboundLocalError; dc_suppress ignored when coherent."
  },
  {
   "property": "C61",
   "status": "proved",
   "theorems": [
    "C61_sim_constructor",
    "C61_wiener_none_refuted"
   ],
   "note": "checks of the SIM constructors in order"
  },
  {
   "property": "C62",
   "status": "proved",
   "theorems": [
    "C62_gain",
    "C62_wiener",
    "C62_black",
    "C62_other_settings",
    "C62_transfer",
    "C62_sum"
   ],
   "note": "Gain range/monotonicity, exact deconvolved response, degenerate cases (black model, None, negative, NaN). Finding: on odd grids easy_ifft reads the frequency next to the zero frequency (C62_sum), on even grids the transfer function is exactly the gain (C62_transfer)."
  },
  {
   "property": "C63",
   "status": "proved",
   "theorems": [
    "C63_psf_rebuilt",
    "C63_psf_same_arrays",
    "C63_psf_unreadable",
    "C63_psf_limits_kept",
    "C63_microscope_rebuilt",
    "C63_microscope_oversampled",
    "C63_microscope_unreadable"
   ],
   "note": "PSF classes: rebuilt exactly iff finite and within limits; microscopes: rebuilt as constructed without oversampling, size multiplied twice with it, SIM subclasses and text/non-finite keywords not evaluable"
  },
  {
   "property": "C64",
   "status": "proved",
   "theorems": [
    "C64_extents",
    "C64_parity",
    "C64_fft_extents",
    "C64_fft_bounds",
    "C64_fft_refused"
   ],
   "note": "All integer n, real d."
  },
  {
   "property": "C65",
   "status": "proved",
   "theorems": [
    "C65_value",
    "C65_algebra",
    "C65_bounds",
    "C65_monotone",
    "C65_zero_aperture"
   ],
   "note": "Over the reals."
  },
  {
   "property": "C66",
   "status": "proved",
   "theorems": [
    "C66_labview",
    "C66_refused"
   ],
   "note": "C66_labview (success, s x s rows, equals the phase retrieve_phase returns for the prepared stack, zero outside the aperture) and C66_refused; element types other than integers are not modelled; size-1 images excluded"
  },
  {
   "property": "C67",
   "status": "proved",
   "theorems": [
    "C67_parse",
    "C67_untagged",
    "C67_unparseable",
    "C67_wrong_prefix",
    "C67_styles",
    "C67_untagged_styles",
    "C67_pep440_one_plus",
    "C67_pep440_injective",
    "C67_round_trip",
    "C67_keywords",
    "C67_unexpanded",
    "C67_parentdir",
    "C67_get_versions",
    "C67_get_versions_otherwise"
   ],
   "note": "git describe parsing, all six styles, round trip, injectivity, keywords, parent directory, get_versions flow; run_command's subprocess handling, git_get_keywords and logging (verbose) are not modelled; characters below code point 256; int() of the commit count only for digit strings"
  },
  {
   "property": "C68",
   "status": "proved",
   "theorems": [
    "C68_angular_spectrum"
   ],
   "note": ""
  },
  {
   "property": "C69",
   "status": "proved",
   "theorems": [
    "C69_focus_pixel",
    "C69_even_centred",
    "C69_odd_centre_darker"
   ],
   "note": "maximum for all parameters; strictness at the centre pixel for odd sizes"
  },
  {
   "property": "C70",
   "status": "proved",
   "theorems": [
    "C70_aberrated_pupil",
    "C70_coordinates",
    "C70_support",
    "C70_single_pixel_refuted"
   ],
   "note": "single-pixel grid defect characterised"
  },
  {
   "property": "C71",
   "status": "proved",
   "theorems": [
    "C71_sign_reversal"
   ],
   "note": ""
  },
  {
   "property": "C72",
   "status": "proved",
   "theorems": [
    "C72_phase_only_energy",
    "C72_strehl_ratio_at_most_1"
   ],
   "note": "Strehl bound for scalar (vec_corr=none) models"
  },
  {
   "property": "C73",
   "status": "proved",
   "theorems": [
    "C73_hanser_objects",
    "C73_sheppard_objects"
   ],
   "note": ""
  },
  {
   "property": "C74",
   "status": "proved",
   "theorems": [
    "C74_constructor_arguments"
   ],
   "note": "attributes after construction, both classes, with defaults"
  },
  {
   "property": "C75",
   "status": "proved",
   "theorems": [
    "C75_iteration"
   ],
   "note": "update written with explicit plane waves"
  },
  {
   "property": "C76",
   "status": "proved",
   "theorems": [
    "C76_apotome",
    "C76_hanser",
    "C76_light"
   ],
   "note": "General theorem for every model image, plus the Hanser instance."
  },
  {
   "property": "C77",
   "status": "proved",
   "theorems": [
    "C77_hanser",
    "C77_sheppard"
   ],
   "note": "non-finite attribute values are outside the real-number model; on the shell of a dual vectorial SheppardPSF the sine condition and the axis point of the lower shell are non-finite (C38)"
  },
  {
   "property": "C78",
   "status": "proved",
   "theorems": [
    "C78_psf_panels",
    "C78_psf_refused",
    "C78_titles",
    "C78_drawn",
    "C78_otf_panels",
    "C78_otf_square",
    "C78_otf_centre"
   ],
   "note": "imshow placement of pixels is a small stated specification; colour maps, norms and ticks are not modelled. Finding: YZ/XZ titles are exchanged (C78_swapped)."
  },
  {
   "property": "C79",
   "status": "proved",
   "theorems": [
    "C79_overlays"
   ],
   "note": "Over the reals, both inclusions."
  },
  {
   "property": "C80",
   "status": "proved",
   "theorems": [
    "C80_plot_otf",
    "C80_plot_otf_nan",
    "C80_plot_psf"
   ],
   "note": "For finite PSFs and na <= ni; the NaN case of plot_otf is C80_plot_otf_nan. Finding: axial axis of both plots uses pixel_size, not zres."
  },
  {
   "property": "C81",
   "status": "proved",
   "theorems": [
    "C81_refused",
    "C81_generated",
    "C81_plot_psf",
    "C81_plot_otf",
    "C81_hanser_plots"
   ],
   "note": "refusal condition, generated ranges, window and OTF panels; every physical HanserPSF with evenly spaced planes plots; witness shows axial scale ignores zrange spacing"
  },
  {
   "property": "C82",
   "status": "proved",
   "theorems": [
    "C82_constructor_accepts",
    "C82_keyword_order",
    "C82_default_keywords",
    "C82_unknown_or_missing_keyword"
   ],
   "note": "iff for finite real wl, na, ni, res, zres, both classes, any other argument values"
  },
  {
   "property": "C83",
   "status": "proved",
   "theorems": [
    "C83_result_plot",
    "C83_convergence_plot",
    "C83_axes_refused",
    "C83_decomposition_plot",
    "C83_coefficient_bars",
    "C83_named_coefs",
    "C83_named_coefs_few"
   ],
   "note": "C83_result_plot, C83_convergence_plot, C83_decomposition_plot, C83_axes_refused, C83_coefficient_bars, C83_named_coefs; C83_named_coefs_few is the finding about five coefficients. matplotlib is represented by the data handed to it; Axes.bar by its broadcasting rule."
  },
  {
   "property": "C84",
   "status": "proved",
   "theorems": [
    "C84_mirror_y",
    "C84_mirror_x",
    "C84_exchange",
    "C84_ideal",
    "C84_objects"
   ],
   "note": "C84_mirror_y, C84_mirror_x, C84_exchange, C84_ideal, C84_objects (arrays read from objects after any history)."
  },
  {
   "property": "C85",
   "status": "proved",
   "theorems": [
    "C85_hanser",
    "C85_sheppard",
    "C85_hanser_objects",
    "C85_sheppard_objects"
   ],
   "note": "C85_hanser, C85_sheppard for the numerics, C85_hanser_objects, C85_sheppard_objects for all four arrays of objects after any history; no physical restriction on the parameters, equality of outcomes (arrays or exception). Exact arithmetic."
  },
  {
   "property": "C86",
   "status": "proved",
   "theorems": [
    "C86_planes",
    "C86_objects"
   ],
   "note": "C86_planes, C86_objects."
  },
  {
   "property": "C87",
   "status": "proved",
   "theorems": [
    "C87_exposure",
    "C87_dim_data_stops_at_once"
   ],
   "note": "phase_only keeps pupil and PSF; stopping is excluded by tolerances <= 0 in the first theorem; the second is about stopping"
  },
  {
   "property": "C88",
   "status": "proved",
   "theorems": [
    "C88_run_command",
    "C88_output_unique",
    "C88_versions_from_commands",
    "C88_only_git_queries",
    "C88_get_versions"
   ],
   "note": "characters beyond code point 255 count as undecodable; verbose messages not modelled"
  },
  {
   "property": "C89",
   "status": "proved",
   "theorems": [
    "C89_keywords_in_file",
    "C89_same_as_import"
   ],
   "note": "the file's text is given decoded; decoding errors of open() are not modelled"
  },
  {
   "property": "C90",
   "status": "proved",
   "theorems": [
    "C90_views",
    "C90_symmetric_data"
   ],
   "note": "exact arithmetic; the unwrapped phase image itself is compared through the complex pupil and the magnitude"
  },
  {
   "property": "C91",
   "status": "proved",
   "theorems": [
    "C91_outcome",
    "C91_distinct_axes",
    "C91_axis_twice"
   ],
   "note": "an axis listed three or more times is accepted (outcome theorem) but its values are not described"
  },
  {
   "property": "C92",
   "status": "proved",
   "theorems": [
    "C92_same_lines",
    "C92_sim2d_sim3d",
    "C92_example_angles"
   ],
   "note": "C92_same_lines for BaseSIMMicroscope, C92_sim2d_sim3d for the named classes. No hypothesis on the other arguments; exact arithmetic."
  },
  {
   "property": "C93",
   "status": "proved",
   "theorems": [
    "C93_objects",
    "C93_microscopes",
    "C93_sim",
    "C93_phase_retrieval"
   ],
   "note": "C93_objects, C93_microscopes, C93_sim, C93_phase_retrieval; literal equality of outcomes; exact arithmetic."
  },
  {
   "property": "C94",
   "status": "proved",
   "theorems": [
    "C94_psf_plot",
    "C94_psf_plot_returns",
    "C94_psf_plot_refused",
    "C94_otf_plot",
    "C94_otf_plot_returns",
    "C94_otf_plot_refused",
    "C94_microscope_psf",
    "C94_microscope_psf_refused",
    "C94_microscope_otf",
    "C94_microscope_otf_refused",
    "C94_object_psf",
    "C94_object_psf_refused",
    "C94_object_otf",
    "C94_object_otf_refused"
   ],
   "note": "Data handed to matplotlib; what imshow does with it is outside. For the methods the figure of a non-finite PSF is not described."
  },
  {
   "property": "C95",
   "status": "proved",
   "theorems": [
    "C95_interrupted_reads_leave_no_trace",
    "C95_interrupted_assignment",
    "C95_a_change_repairs",
    "C95_retry",
    "C95_retry_does_not_repair_refuted",
    "C95_interrupted_apply_pupil",
    "C95_interrupted_replacement_refuted"
   ],
   "note": "Programs of M_Steps refine M_PSF (Ref_read, Ref_assign, Ref_apply in L_Steps). The weaknesses (retry of wl/na/ni/size, replacement of a pupil) are shown by the _refuted theorems."
  },
  {
   "property": "C96",
   "status": "proved",
   "theorems": [
    "C96_concurrent_reads_are_right",
    "C96_objects_stay_right",
    "C96_no_deadlock",
    "C96_bounded_work",
    "C96_all_reads_done",
    "C96_writer_leaves_stale_array_refuted"
   ],
   "note": "Reads only; that a concurrent assignment is unsafe is shown by C96_writer_leaves_stale_array_refuted. Computation after _gen_kr is one step; the coordinates it leaves on the instance are modelled as registers."
  },
  {
   "property": "C97",
   "status": "proved",
   "theorems": [
    "C97_radial_bins",
    "C97_default_profile",
    "C97_pinhole",
    "C97_passband",
    "C97_passband_symmetric"
   ],
   "note": "Binary64 by Flocq's round-to-nearest-even with gradual underflow, no overflow; hypot is a parameter within one ulp (numpy uses the C library's). Sums inside a radial bin are exact in the model."
  },
  {
   "property": "C98",
   "status": "proved",
   "theorems": [
    "C98_default_zrange",
    "C98_short_zrange"
   ],
   "note": "Binary64 by Flocq; the mean may be summed along any binary tree."
  },
  {
   "property": "C99",
   "status": "proved",
   "theorems": [
    "C99_normalised"
   ],
   "note": "Binary64 by Flocq; sums along any binary tree over the pixels; overflow not modelled."
  },
  {
   "property": "C100",
   "status": "proved",
   "theorems": [
    "C100_res_limit",
    "C100_zres_limit",
    "C100_aperture_accepted",
    "C100_aperture_refused",
    "C100_shell_inside",
    "C100_shell_outside",
    "C100_shell_symmetric"
   ],
   "note": "C pow(x,2) is a parameter (monotone, within one ulp); exact transposition symmetry is not claimed: the sum of squares is added in a fixed order"
  },
  {
   "property": "C101",
   "status": "proved",
   "theorems": [
    "C101_steps",
    "C101_interrupted_read",
    "C101_interrupted_history",
    "C101_interrupted_assignment",
    "C101_a_change_repairs",
    "C101_retry_is_skipped",
    "C101_retry_does_not_repair_refuted"
   ],
   "note": "Interrupted reads, whole histories, interrupted assignments, repair by a later change; that a retry repairs is refuted with a witness."
  },
  {
   "property": "C102",
   "status": "proved",
   "theorems": [
    "C102_concurrent_reads_are_right",
    "C102_microscopes_stay_right",
    "C102_no_deadlock",
    "C102_all_reads_done",
    "C102_bounded_work"
   ],
   "note": "No two microscopes share a PSF object; threads that assign are not covered (C96 shows they are unsafe)."
  },
  {
   "property": "C103",
   "status": "proved",
   "theorems": [
    "C103_methods_keep_the_result",
    "C103_pupil_of_the_arrays",
    "C103_fit_ignores_the_model",
    "C103_no_fit_yet",
    "C103_latest_fit_counts",
    "C103_decompositions_are_kept",
    "C103_edits_are_seen",
    "C103_generated_from_scratch",
    "C103_same_answer_later",
    "C103_another_size_is_refused"
   ],
   "note": "Histories of calls on a PhaseRetrievalResult, its decompositions (with identity) and its model; least squares solver and unwrap are parameters. mag, phase and the decompositions are replaced as wholes (an in-place write is the same as an assignment of the new contents)."
  },
  {
   "property": "C104",
   "status": "proved",
   "theorems": [
    "C104_writes_reach_exactly_the_holders",
    "C104_library_writes_into_no_array",
    "C104_a_read_hands_out_the_held_array",
    "C104_no_array_is_in_two_slots",
    "C104_no_array_is_in_two_objects",
    "C104_a_write_changes_one_slot",
    "C104_written_arrays_are_believed",
    "C104_a_change_forgets_what_was_written",
    "C104_copies_share_arrays_refuted"
   ],
   "note": "M_Write.v adds the caller's writes to the heap of M_Heap.v. The main theorem characterises every object after every program with writes; further theorems say who can hold an array, what is computed from a written array, and that accepted changes forget writes. Sharing between copies is exhibited by a refutation witness."
  },
  {
   "property": "C105",
   "status": "proved",
   "theorems": [
    "C105_apotome_cutoff",
    "C105_apotome_within_one",
    "C105_pinhole_applies",
    "C105_pinhole_disc",
    "C105_pinhole_meaning",
    "C105_plot_window",
    "C105_plot_widths",
    "C105_plot_meaning"
   ],
   "note": "M_Float3.v computes the sizes with Flocq's round-to-nearest-even binary64 (no overflow); the theorems bound the accumulated relative error and transfer rint, the comparison with 1.5 and the disc to the exact quantities, which C105_plot_meaning and C105_pinhole_meaning identify with those of the exact model. na > ni (NaN) and na < ni/1024 are outside the statement about the axial width."
  },
  {
   "property": "C106",
   "status": "proved",
   "theorems": [
    "C106_each_iteration",
    "C106_light",
    "C106_iterations",
    "C106_converges",
    "C106_labview"
   ],
   "note": "phase_only False (with phase_only True the weights of the projection can vanish and no such bound is claimed); exact reals; unwrap_phase only has to add whole turns"
  },
  {
   "property": "C107",
   "status": "proved",
   "theorems": [
    "C107_one_plane",
    "C107_one_position"
   ],
   "note": "C107_one_plane: data (1, n, n) against a zrange of m positions is the run on the plane repeated m times (records, magnitude, complex pupil, PSF; the stored phase agrees up to whole turns since unwrap_phase is only assumed to add turns). C107_one_position: nz planes against one position is the run on one plane of mean amplitude, for an mse_tol nothing is below (the recorded errors differ). Both with explicit zrange and data of at least 2 x 2 pixels."
  },
  {
   "property": "C108",
   "status": "proved",
   "theorems": [
    "C108_constructors",
    "C108_new",
    "C108_history",
    "C108_own_operations",
    "C108_library_writes_into_no_array",
    "C108_a_read_hands_out_the_held_array",
    "C108_a_read_hands_out_the_held_OTF",
    "C108_copy",
    "C108_no_array_is_in_two_microscopes",
    "C108_written_arrays_are_believed",
    "C108_widefield_model_psf_is_the_models_array",
    "C108_written_model_psf",
    "C108_written_OTF"
   ],
   "note": "Reference-level model of the four microscopes over the PSF heap of C29/C104; simulation of every method, frame conditions, aliasing invariant. Not covered: deep copies of microscopes, writes into orientations or psf_params."
  },
  {
   "property": "C109",
   "status": "proved",
   "theorems": [
    "C109_when_not_black",
    "C109_widefield",
    "C109_confocal",
    "C109_apotome"
   ],
   "note": "Images written as finite sums of lateral exponentials below a limit (closed under product, conjugation, cyclic shift and taking every f-th pixel). Outside the property: confocal with a pinhole convolution (cut to the 'same' size, not band-limited) and SIM (pattern frequencies off the grid)."
  },
  {
   "property": "C110",
   "status": "proved",
   "theorems": [
    "C110_binning_in_frequency",
    "C110_aliases",
    "C110_pixel_transfer",
    "C110_widefield"
   ],
   "note": "For odd f (the only factors the constructor accepts)."
  },
  {
   "property": "C111",
   "status": "proved",
   "theorems": [
    "C111_amplitudes",
    "C111_reach",
    "C111_light",
    "C111_objects",
    "C111_widefield"
   ],
   "note": "Lateral reach of the shell, band limit of OTFi of objects after any history and of the Sheppard widefield microscope; the light by Parseval. The aperture must not exceed ni (else construction of the OTF raises, C39); dual shells only when no amplitude is NaN (C38)."
  },
  {
   "property": "C112",
   "status": "proved",
   "theorems": [
    "C112_autocorrelation",
    "C112_objects",
    "C112_support",
    "C112_axial_cutoff",
    "C112_missing_cone",
    "C112_scalar",
    "C112_scalar_even",
    "C112_dual_bands"
   ],
   "note": "in every parity, for every history; the scalar case as a count of pairs; exact zeros beyond the axial cut-off and in the missing cone"
  },
  {
   "property": "C113",
   "status": "proved",
   "theorems": [
    "C113_widefield",
    "C113_widefield_cutoff",
    "C113_confocal",
    "C113_confocal_cutoff",
    "C113_confocal_light",
    "C113_missing_cone"
   ],
   "note": "over exact arithmetic; C113_confocal_light discharges the positive light of confocal images for scalar models and every pinhole; C113_missing_cone carries C112's missing cone to oversampled widefield microscopes; C113_witness, C113_confocal_case and C113_missing_cone_case are concrete microscopes"
  }
 ]
}